From Verif Require Import MpliteProof2 MpliteProof6.
From Verif Require Import CBase SeqLib RingBuffer2Model RingBuffer2Proof FixedQueueModel MsgQueueModel SpscModel SpscSpec SpscProof
  FHandlerModel FHandlerSpec FHandlerProof FHandlerProof2.

Lemma l_pr s s' A d : linv s A d -> flog s' = flog s -> fmin s' = fmin s -> fwk s' = fwk s ->
  fflight (fpr s') = fflight (fpr s) -> fpend (fpr s') = fpend (fpr s) ->
  fpr s <> F153 -> fpr s <> F156 -> fpr s' <> F153 -> fpr s' <> F156 -> linv s' A d.
Proof.
  intros [] E1 E2 E3 E4 E5 N1 N2 N3 N4. constructor; rewrite ?E1, ?E2, ?E3, ?E4, ?E5; auto.
  destruct v_min as (M1 & M2 & M3). split; [exact M1|]. split; [exact M2|].
  destruct (fpr s); try congruence; destruct (fpr s'); try congruence; exact M3.
Qed.
Lemma removelast_snoc' {X} (l : list X) x : removelast (l ++ [x]) = l.
Proof. rewrite removelast_app by discriminate. cbn. apply app_nil_r. Qed.

Section Step.
Variable one : Z.

Lemma vw_snoc s A d m : vw one s A d -> 0 <= d -> vw one s (A ++ [m]) d.
Proof.
  unfold vw. intros H Hd. destruct (fwk s); auto.
  - rewrite zlen_snoc. lia.
  - destruct H as (H1 & H2 & H3 & H4 & H5). rewrite zlen_snoc. split; [lia|]. split; [auto|]. split; [auto|]. split; [auto|].
    intros m0 j E. rewrite znth_app_l in E by lia. apply H5; auto.
  - destruct H as (m0 & H1 & H2 & H3). exists m0. split; [auto|]. split; [apply znth_snoc_old; auto|auto].
  - destruct H as (m0 & H1 & H2 & H3). exists m0. split; [auto|]. split; [apply znth_snoc_old; auto|auto].
Qed.

Lemma fpexec_inv s A d : finv one s A d -> zlen (kaccepted (flog s)) + 2 < two64 ->
  exists o, fpexec one s = Ret o /\ forall s', o = Some s' -> exists A', finv one s' A' d.
Proof.
  intros (Q & S & L) HT. pose proof (favail_write_eq _ _ _ _ Q) as AW. pose proof Q as Q0. pose proof S as S0. pose proof L as L0.
  destruct Q, S. pose proof (pow2_bound _ v_pow) as PB. pose proof v_p as VP. unfold vp in VP.
  unfold fpexec. destruct (fpr s) eqn:EP.
  - eexists; split; [reflexivity|discriminate].
  - (* F111 *)
    eexists; split; [reflexivity|]. intros s' K. injection K as <-. exists A. destruct (fflag s) eqn:EF.
    + split; [|split]; [qgo EP|sgo EP|apply (l_pr s); auto; cb; rewrite ?EP; auto; try discriminate].
    + split; [|split]; [qgo EP|sgo EP|apply (l_pr s); auto; cb; rewrite ?EP; auto; try discriminate].
  - (* F117 *)
    eexists; split; [reflexivity|]. intros s' K. injection K as <-. exists A.
    split; [|split]; [|sgo EP|apply (l_pr s); auto; cb; rewrite ?EP; auto; try discriminate].
    qgo EP. split; [exact VP|]. rewrite v_tok, Z.sub_0_r. reflexivity.
  - (* F39 *)
    destruct VP as [V1 V2]. rewrite AW.
    eexists; split; [reflexivity|]. intros s' K. injection K as <-. exists A. destruct (_ =? 0) eqn:E.
    + split; [|split]; [qgo EP|sgo EP|apply (l_pr s); auto; cb; rewrite ?EP; auto; try discriminate].
    + split; [|split]; [|sgo EP|apply (l_pr s); auto; cb; rewrite ?EP; auto; try discriminate].
      qgo EP. split; [exact V1|]. split; [exact V2|].
      assert (1 <= (fsize s - one * (zlen A - d)) / one) as HD.
      { assert (0 <= (fsize s - one * (zlen A - d)) / one) by (apply Z.div_pos; lia). lia. }
      pose proof (Z.mul_div_le (fsize s - one * (zlen A - d)) one). nia.
  - (* F196 *)
    destruct VP as (V1 & V2 & V3). rewrite AW. destruct (_ =? 0) eqn:E; [nia|].
    eexists; split; [reflexivity|]. intros s' K. injection K as <-. exists A.
    rewrite take_min_eq. rewrite v_in, pow2_mask by (auto; apply u32_range). rewrite pow2_mod_u32 by exact v_pow.
    split; [|split]; [|sgo EP|apply (l_pr s); auto; cb; rewrite ?EP; auto; try discriminate].
    qgo EP. split; [exact V1|]. split; [exact V2|]. split; [exact V3|]. split; [nia|]. split; [reflexivity|]. split; [nia|]. intros; lia.
  - (* FCopy *)
    destruct VP as (V1 & V2 & V3 & -> & -> & Hi & HC).
    assert (one <= fsize s) as OS by nia.
    destruct (i <? one) eqn:E.
    + destruct (znth_in_range i w) as (b & Hb); [rewrite V2, wire_len; lia|]. rewrite (mload_znth _ _ _ Hb). cbn [bind].
      rewrite place_mod by (auto; nia).
      assert (0 <= (one * zlen A + i) mod fsize s < fsize s) as HP by (apply Z.mod_pos_bound; lia).
      destruct (mstore_ok (fmem s) ((one * zlen A + i) mod fsize s) b ltac:(lia)) as (t & HS & HL & HX & HO). rewrite HS. cbn [bind].
      eexists; split; [reflexivity|]. intros s' K. injection K as <-. exists A.
      split; [|split]; [|sgo EP|apply (l_pr s); auto; cb; rewrite ?EP; auto; try discriminate].
      qgo EP.
      * lia.
      * intros k m0 j Hk Hm0 Hj. pose proof (znth_Some_range _ _ _ Hm0). rewrite HO; [apply v_mem; auto|]. apply mod_ne; nia.
      * split; [exact V1|]. split; [exact V2|]. split; [exact V3|]. split; [reflexivity|]. split; [reflexivity|]. split; [lia|].
        intros j Hj. destruct (Z.eq_dec j i) as [->|NE]; [congruence|]. rewrite HO; [apply HC; lia|]. apply mod_ne; lia.
    + assert (i = one) by lia. subst i. rewrite Z.eqb_refl. eexists; split; [reflexivity|]. intros s' K. injection K as <-. exists (A ++ [m]).
      assert (A = kaccepted (flog s)) as HA.
      { destruct L. rewrite EP in v_acc. cbn in v_acc. rewrite app_nil_r in v_acc. exact v_acc. }
      split; [|split].
      * constructor; unfold vp in *; cb; rewrite ?zlen_snoc; auto.
        -- apply Forall_app. split; [exact v_msg|]. constructor; [exact V1|constructor].
        -- rewrite v_in, u32_add. f_equal. lia.
        -- lia.
        -- nia.
        -- rewrite HA. lia.
        -- intros k m0 j Hk Hm0 Hj. rewrite znth_app in Hm0. destruct (k <? zlen A) eqn:EK; [apply v_mem; auto|].
           assert (k = zlen A) by (apply znth_Some_range in Hm0; change (zlen [m]) with 1 in Hm0; lia). subst k.
           rewrite Z.sub_diag in Hm0. injection Hm0 as <-. rewrite HC by lia. rewrite V2. reflexivity.
        -- pose proof (vw_snoc s A d m v_w ltac:(lia)) as X. unfold vw in *. cb. exact X.
      * constructor; unfold fover, vtok, fpost, fdp in *; cb; rewrite ?EP in *; cb; auto.
        destruct v_cnt as [K|K]; [left; exact K|right]. rewrite zlen_snoc. lia.
      * destruct L. constructor; cb; rewrite ?EP in *; cb; auto; rewrite ?app_nil_r in *.
        -- exact v_sent.
        -- congruence.
        -- intros k m0 H. destruct (v_cb k m0 H). split; [assumption|]. apply znth_snoc_old; assumption.
  - (* F126 *)
    eexists; split; [reflexivity|]. intros s' K. injection K as <-. exists A.
    split; [|split]; [|sgo EP|apply (l_pr s); auto; cb; rewrite ?EP; auto; try discriminate].
    qgo EP. rewrite v_tok. cb. unfold u64. rewrite Z.mod_small; [lia|].
    destruct L0. rewrite EP in v_acc. cb. rewrite v_acc, zlen_snoc in *. pose proof (zlen_nonneg (kaccepted (flog s))). unfold two64 in *. lia.
  - (* F127 *)
    eexists; split; [reflexivity|]. intros s' K. injection K as <-. exists A.
    split; [|split]; [qgo EP|sgo EP|apply (l_pr s); auto; cb; rewrite ?EP; auto; try discriminate].
    + destruct v_cnt as [K|K]; [left; exact K|right; lia].
    + intro X. destruct (v_dp X) as [Y1 [Y2|[Y2|Y2]]]; split; auto. right; right; lia.
  - (* FRet *)
    eexists; split; [reflexivity|]. intros s' K. injection K as <-. exists A.
    split; [|split]; [qgo EP|sgo EP|].
    + intro K. apply kended_cons. auto.
    + destruct L. constructor; cb; rewrite ?EP in *; cb; auto; ev.
      * rewrite v_sent. destruct (code =? 0); [reflexivity|]. rewrite removelast_snoc', app_nil_r. reflexivity.
      * rewrite v_acc at 1. destruct (code =? 0); [|reflexivity]. rewrite app_nil_r. reflexivity.
      * destruct v_min as (M1 & M2 & M3). split; [exact M1|]. split; [|exact M3]. destruct (code =? 0); rewrite ?zlen_snoc; lia.
  - (* F153 *)
    eexists; split; [reflexivity|]. intros s' K. injection K as <-. exists A.
    split; [|split]; [qgo EP|sgo EP|].
    destruct L. constructor; cb; rewrite ?EP in *; cb; auto.
    + destruct v_min as (M1 & M2 & M3). rewrite v_tok. cbn. lia.
    + intros mid earlier H. destruct (v_clr mid earlier H). split; [|assumption]. destruct v_min as (M1 & M2 & M3). rewrite v_tok. cbn. lia.
  - (* F156 *)
    eexists; split; [reflexivity|]. intros s' K. injection K as <-. exists A.
    split; [|split]; [qgo EP|sgo EP|].
    + intro K. apply kended_cons. auto.
    + destruct L. rewrite EP in *. cb. constructor; cb; auto; ev.
      * destruct v_min as (M1 & M2 & M3 & M4). split; [exact M1|]. split; [exact M2|]. congruence.
      * intros mid earlier H. destruct mid as [|e0 mid].
        -- injection H as <-. destruct v_min as (M1 & M2 & M3 & M4). rewrite app_nil_r in v_acc. rewrite <- v_acc. split; [lia|]. intros _. left. intros k m [].
        -- injection H as <- H. destruct (v_clr mid earlier H) as [K1 K2]. split; [exact K1|]. intro W. destruct (K2 W) as [N|N]; [left|right; exact N].
           intros k m [X|X]; [discriminate|exact (N k m X)].
Qed.

Lemma fdexec_inv s s' A d : finv one s A d -> fdexec s = Some s' -> finv one s' A d.
Proof.
  intros (Q & S & L) H. unfold fdexec in H. destruct (fds s) eqn:ED; try discriminate.
  - injection H as <-. split; [|split].
    + destruct Q. qgo ED.
    + destruct S. sgo ED. intros _. apply v_end0 || (right; apply v_des; discriminate).
    + apply (l_same s); auto.
  - injection H as <-. split; [|split].
    + destruct Q. qgo ED.
    + destruct S. sgo ED.
      * destruct v_cnt as [K|K]; [left; exact K|right; lia].
      * intros _. split; [auto|]. right; right. lia.
    + apply (l_same s); auto.
  - destruct (fwk s) eqn:EW; try discriminate. injection H as <-. split; [|split].
    + destruct Q. qgo ED.
    + destruct S. sgo ED.
      * intros K. apply kended_cons. auto.
      * intros _. right. apply v_des. discriminate.
    + destruct L. constructor; cb; auto; ev.
Qed.

Lemma fpush_inv s m A d : finv one s A d -> fpr s = FIdle -> zlen m + 8 = one -> finv one (set_fpr (femit s (KPush m)) (F111 m)) A d.
Proof.
  intros (Q & S & L) EP HM. split; [|split].
  - destruct Q. qgo EP.
  - destruct S. sgo EP. intros K. apply kended_cons. auto.
  - destruct L. rewrite EP in *. cb. constructor; cb; auto; ev. rewrite v_sent, app_nil_r. reflexivity.
Qed.
Lemma fclear_inv s A d : finv one s A d -> fpr s = FIdle -> finv one (set_fpr (femit s KClear) F153) A d.
Proof.
  intros (Q & S & L) EP. split; [|split].
  - destruct Q. qgo EP.
  - destruct S. sgo EP. intros K. apply kended_cons. auto.
  - destruct L. rewrite EP in *. cb. constructor; cb; auto; ev.
    + destruct v_min as (M1 & M2 & M3). rewrite app_nil_r in v_acc. rewrite <- v_acc in *. lia.
    + intros k H. destruct Q. rewrite app_nil_r in v_acc. rewrite <- v_acc in H. destruct (held (fwk s)); lia.
Qed.
Lemma fdestroy_inv s A d : finv one s A d -> fds s = ENone -> finv one (set_fds (femit s KDestroy) E165) A d.
Proof.
  intros (Q & S & L) ED. split; [|split].
  - destruct Q. qgo ED.
  - destruct S. sgo ED; try (intros K; apply kended_cons; auto; fail); try (intros; left; reflexivity).
  - destruct L. constructor; cb; auto; ev.
Qed.
End Step.

Section Reach.
Variable q : fq Z.
Hypothesis Hq : rb_in (fq_ring q) = 0 /\ rb_out (fq_ring q) = 0 /\ is_pow2 (rb_size (fq_ring q)) /\ rb_size (fq_ring q) <= zlen (rb_buf (fq_ring q)).
Hypothesis Hone : 8 <= fq_one q < two32.

Lemma fboot_inv : finv (fq_one q) (fhboot q) [] 0.
Proof.
  destruct Hq as (A & B & C & D). pose proof (pow2_bound _ C). split; [|split].
  - constructor; unfold vp, vw; cbn [fhboot fin fout fsize fmem ftok fmin fsem fflag fbuf fwk fpr fds flog ftaken]; auto; change (zlen (@nil (list Z))) with 0; rewrite ?Z.mul_0_r; auto; try lia; try (unfold two64; lia).
    + intros k m j _ K. rewrite znth_nil in K. discriminate.
    + unfold zlen. rewrite repeat_length. lia.
  - constructor; unfold fover, vtok, fpost, fdp; cbn; auto; try lia; try discriminate; try congruence. intros [X|[X|X]]; discriminate.
  - constructor; cbn; auto; try lia; try discriminate.
    + change (zlen (@nil (list Z))) with 0. split; [lia|]. split; [lia|reflexivity].
    + intros mid earlier X. destruct mid; discriminate.
    + intros later k m mid earlier X. destruct later; discriminate.
Qed.
Lemma fhstep_log one s s' : fhstep one s s' -> exists x, flog s' = x ++ flog s.
Proof.
  intros [s0 r s1 H|s0 s1 H|s0 s1 H|s0 m P D M|s0 P D|s0 P D]; try (eexists [_]; reflexivity).
  - unfold fwexec in H. destruct (fwk s0); try discriminate; try (injection H as <-; exists []; reflexivity); try (injection H as <-; eexists [_]; reflexivity).
    + destruct (_ <? _); [|discriminate]. injection H as <-; exists []; reflexivity.
    + destruct (_ =? _); injection H as <-; exists []; reflexivity.
    + destruct (_ <? _); [|injection H as <-; exists []; reflexivity].
      destruct (mload _ _); cbn [bind] in H; try discriminate.
      destruct (mstore _ _ _); cbn [bind] in H; try discriminate. injection H as <-; exists []; reflexivity.
  - unfold fpexec in H. destruct (fpr s0); try discriminate; try (injection H as <-; exists []; reflexivity); try (injection H as <-; eexists [_]; reflexivity).
    + destruct (_ =? _); injection H as <-; exists []; reflexivity.
    + destruct (_ <? _); [|injection H as <-; exists []; reflexivity].
      destruct (mload _ _); cbn [bind] in H; try discriminate.
      destruct (mstore _ _ _); cbn [bind] in H; try discriminate. injection H as <-; exists []; reflexivity.
  - unfold fdexec in H. destruct (fds s0); try discriminate; try (injection H as <-; exists []; reflexivity).
    destruct (fwk s0); try discriminate. injection H as <-; eexists [_]; reflexivity.
Qed.
Lemma kaccepted_mono x l : zlen (kaccepted l) <= zlen (kaccepted (x ++ l)).
Proof.
  induction x as [|e x IH]; cbn [app kaccepted]; [lia|]. destruct e; auto. destruct (code =? 0); rewrite ?zlen_snoc; lia.
Qed.
Lemma fhreach_inv s : fhreach q s -> zlen (kaccepted (flog s)) + 2 < two64 -> exists A d, finv (fq_one q) s A d.
Proof.
  induction 1 as [|s s' H IH HS]; intro HT; [exists [], 0; apply fboot_inv|].
  destruct (fhstep_log _ _ _ HS) as (x & EX). rewrite EX in HT. pose proof (kaccepted_mono x (flog s)) as HM.
  destruct IH as (A & d & I); [lia|].
  destruct HS as [s r s' HW|s s' HP|s s' HD|s m P D M|s P D|s P D].
  - destruct (fwexec_inv (fq_one q) r s A d I) as (o & E & K). rewrite HW in E. injection E as <-. destruct (K s' eq_refl) as (d' & I'). eauto.
  - destruct (fpexec_inv (fq_one q) s A d I ltac:(lia)) as (o & E & K). rewrite HP in E. injection E as <-. destruct (K s' eq_refl) as (A' & I'). eauto.
  - exists A, d. eapply fdexec_inv; eauto.
  - exists A, d. apply fpush_inv; auto.
  - exists A, d. apply fclear_inv; auto.
  - exists A, d. apply fdestroy_inv; auto.
Qed.

(** ** consequences *)
Lemma fh_no_fault s r : fhreach q s -> zlen (kaccepted (flog s)) + 2 < two64 ->
  (exists o, fwexec (fq_one q) r s = Ret o) /\ (exists o, fpexec (fq_one q) s = Ret o).
Proof.
  intros H HT. destruct (fhreach_inv s H HT) as (A & d & I). split.
  - destruct (fwexec_inv (fq_one q) r s A d I) as (o & E & _). eauto.
  - destruct (fpexec_inv (fq_one q) s A d I HT) as (o & E & _). eauto.
Qed.
Lemma kord_split later k m earlier : kord (later ++ KCb k m :: earlier) -> forall k' m', In (KCb k' m') earlier -> k' < k.
Proof.
  induction later as [|e l IH]; cbn [app]; intros H k' m' X; [destruct H; eauto|].
  destruct e; cbn [kord] in H; eauto. destruct H. eauto.
Qed.
Lemma fh_order s later k m earlier : fhreach q s -> zlen (kaccepted (flog s)) + 2 < two64 ->
  flog s = later ++ KCb k m :: earlier ->
  znth k (ksent (flog s)) = Some m /\ forall k' m', In (KCb k' m') earlier -> k' < k.
Proof.
  intros H HT E. destruct (fhreach_inv s H HT) as (A & d & _ & _ & L). destruct L. split.
  - destruct (v_cb k m) as [R Z]; [rewrite E; apply in_app_iff; right; left; reflexivity|].
    rewrite v_sent. pose proof (znth_Some_range _ _ _ Z). rewrite znth_app_l by lia. exact Z.
  - rewrite E in v_ord. eapply kord_split; eauto.
Qed.
Lemma fh_all s k : fhreach q s -> zlen (kaccepted (flog s)) + 2 < two64 -> fasleep s -> fpr s = FIdle -> ~ kended (flog s) ->
  cleared (flog s) <= k < zlen (kaccepted (flog s)) -> exists m, In (KCb k m) (flog s).
Proof.
  intros H HT [EW ES] EP NE HK. destruct (fhreach_inv s H HT) as (A & d & Q & S & L). destruct Q, S, L.
  rewrite EW in *. cbn [held] in *. apply v_all. rewrite EP in v_acc. cbn in v_acc. rewrite app_nil_r in v_acc. rewrite <- v_acc in HK.
  destruct v_cnt as [[K|K]|K]; [congruence|congruence|]. unfold vtok, fpost in K. rewrite EW, EP, ES in K.
  assert (fdp s = 0) as D0.
  { unfold fdp in *. destruct (fds s) eqn:ED; try reflexivity; exfalso; apply NE; right; apply v_des; discriminate. }
  lia.
Qed.
Lemma fh_clear s later k m mid earlier : fhreach q s -> zlen (kaccepted (flog s)) + 2 < two64 ->
  flog s = later ++ KCb k m :: mid ++ KClearRet :: earlier ->
  zlen (kaccepted earlier) <= k \/ forall k' m', ~ In (KCb k' m') mid.
Proof. intros H HT E. destruct (fhreach_inv s H HT) as (A & d & _ & _ & []). eapply v_ok; eauto. Qed.
Lemma fh_progress s : fhreach q s -> zlen (kaccepted (flog s)) + 2 < two64 ->
  fwk s = VDone \/ fasleep s \/ exists s', fwexec (fq_one q) 0 s = Ret (Some s').
Proof.
  intros H HT. destruct (fhreach_inv s H HT) as (A & d & I). destruct (fwexec_inv (fq_one q) 0 s A d I) as (o & E & _).
  destruct I as (_ & S & _). destruct S.
  destruct (fwk s) eqn:EW; auto; right.
  - destruct (Z_lt_dec 0 (fsem s)); [right|left; split; [exact EW|lia]]. unfold fwexec. rewrite EW. destruct (0 <? fsem s) eqn:E0; [eauto|lia].
  - right. unfold fwexec. rewrite EW. eauto.
  - right. unfold fwexec. rewrite EW. eauto.
  - right. unfold fwexec. rewrite EW. destruct (_ =? 0); eauto.
  - right. unfold fwexec in *. rewrite EW in *. destruct (_ <? _); [|eauto]. destruct (mload _ _); cbn [bind] in *; try discriminate.
    destruct (mstore _ _ _); cbn [bind] in *; try discriminate. eauto.
  - right. unfold fwexec. rewrite EW. eauto.
  - right. unfold fwexec. rewrite EW. eauto.
  - right. unfold fwexec. rewrite EW. eauto.
  - right. unfold fwexec. rewrite EW. eauto.
Qed.
Lemma fh_room s m w : fhreach q s -> zlen (kaccepted (flog s)) + 2 < two64 -> fq_one q <= fsize s -> fasleep s -> ~ kended (flog s) -> fpr s = F39 m w ->
  fpexec (fq_one q) s = Ret (Some (set_fpr s (F196 m w))).
Proof.
  intros H HT HS [EW ES] NE EP. destruct (fhreach_inv s H HT) as (A & d & Q & S & L). pose proof (favail_write_eq _ _ _ _ Q) as AW.
  destruct Q, S. unfold fover, vtok, fpost, fdp in *. rewrite EW, EP, ES in *.
  assert (match fds s with E168 | EDone => 1 | _ => 0 end = 0) as D0.
  { destruct (fds s) eqn:ED; try reflexivity; exfalso; apply NE; right; apply v_des; discriminate. }
  assert (zlen A = d) as EA by (destruct v_cnt as [[K|K]|K]; try discriminate; lia).
  unfold fpexec. rewrite EP, AW, EA, Z.sub_diag, Z.mul_0_r, Z.sub_0_r.
  assert (1 <= fsize s / fq_one q) by (apply Z.div_le_lower_bound; lia). destruct (_ =? 0) eqn:E; [lia|reflexivity].
Qed.
Lemma fh_join s : fhreach q s -> zlen (kaccepted (flog s)) + 2 < two64 -> fds s = E168 -> ~ fasleep s.
Proof.
  intros H HT E [A0 B0]. destruct (fhreach_inv s H HT) as (A & d & _ & S & _). destruct S.
  destruct v_dp as [_ [K|[[K|K]|K]]]; try congruence; try lia. unfold fdp; rewrite E; reflexivity.
Qed.
Lemma fh_destroyed s : fhreach q s -> In KDestroyed (flog s) -> fwk s = VDone.
Proof.
  intros H. assert ((fds s = EDone -> fwk s = VDone) /\ (In KDestroyed (flog s) -> fds s = EDone)) as [A B]; [|intro X; auto].
  induction H as [|s s' H [IH1 IH2] HS]; [split; [discriminate|intros []]|].
  destruct HS as [s r s' HW|s s' HP|s s' HD|s m P D M|s P D|s P D].
  - assert (fds s' = fds s /\ (In KDestroyed (flog s') -> In KDestroyed (flog s))) as [E1 E2].
    { unfold fwexec in HW. destruct (fwk s); try discriminate; try (injection HW as <-; split; auto; intros [X|X]; [discriminate|auto]); try (injection HW as <-; split; auto; fail).
      - destruct (_ <? _); [|discriminate]. injection HW as <-; auto.
      - destruct (_ =? _); injection HW as <-; auto.
      - destruct (_ <? _); [|injection HW as <-; auto].
        destruct (mload _ _); cbn [bind] in HW; try discriminate.
        destruct (mstore _ _ _); cbn [bind] in HW; try discriminate. injection HW as <-; auto. }
    rewrite E1. split; [|auto]. intro X. exfalso. unfold fwexec in HW. rewrite (IH1 X) in HW. discriminate.
  - assert (fds s' = fds s /\ fwk s' = fwk s /\ (In KDestroyed (flog s') -> In KDestroyed (flog s))) as (E1 & E3 & E2).
    { unfold fpexec in HP. destruct (fpr s); try discriminate; try (injection HP as <-; split; auto; split; auto; intros [X|X]; [discriminate|auto]); try (injection HP as <-; split; auto; fail).
      - destruct (_ =? _); injection HP as <-; auto.
      - destruct (_ <? _); [|injection HP as <-; auto].
        destruct (mload _ _); cbn [bind] in HP; try discriminate.
        destruct (mstore _ _ _); cbn [bind] in HP; try discriminate. injection HP as <-; auto. }
    rewrite E1, E3. auto.
  - unfold fdexec in HD. destruct (fds s) eqn:ED; try discriminate.
    + injection HD as <-. cbn. split; [discriminate|]. intro X. specialize (IH2 X). discriminate.
    + injection HD as <-. cbn. split; [discriminate|]. intro X. specialize (IH2 X). discriminate.
    + destruct (fwk s) eqn:EW; try discriminate. injection HD as <-. cbn. auto.
  - cbn. split; [auto|]. intros [X|X]; [discriminate|auto].
  - cbn. split; [auto|]. intros [X|X]; [discriminate|auto].
  - cbn. split; [discriminate|]. intros [X|X]; [discriminate|]. specialize (IH2 X). congruence.
Qed.
End Reach.
Definition vrank (one : Z) (w : vpc) : Z :=
  match w with V49 => 0 | V50 => one + 8 | V51 => one + 7 | V235 => one + 6 | VCopy n _ i => n - i + 5 | V58 => 4 | V60 => 3 | VCb => 2 | V73 => 1 | VDone => 0 end.
Lemma vrun_bound q n s s' : (rb_in (fq_ring q) = 0 /\ rb_out (fq_ring q) = 0 /\ is_pow2 (rb_size (fq_ring q)) /\ rb_size (fq_ring q) <= zlen (rb_buf (fq_ring q))) ->
  8 <= fq_one q < two32 -> vrun (fq_one q) n s s' -> fhreach q s -> zlen (kaccepted (flog s')) + 2 < two64 -> Z.of_nat n <= fq_one q + 8.
Proof.
  intros Hq Ho H.
  assert (exists x, flog s' = x ++ flog s) as (y & Ey).
  { induction H as [s|n r s s1 s2 NW HW _ IH|n s s1 s2 HS E _ IH]; [exists []; reflexivity| |].
    - destruct IH as (x & ->). destruct (fhstep_log (fq_one q) s s1) as (z & ->); [eapply FSW; eauto|]. exists (x ++ z). rewrite app_assoc; reflexivity.
    - destruct IH as (x & ->). destruct (fhstep_log (fq_one q) s s1 HS) as (z & ->). exists (x ++ z). rewrite app_assoc; reflexivity. }
  intros HR HT. assert (Z.of_nat n <= vrank (fq_one q) (fwk s)) as B.
  { clear y Ey. induction H as [s|n r s s1 s2 NW HW HRun IH|n s s1 s2 HS E HRun IH].
    - destruct (fhreach_inv q Hq Ho s HR HT) as (A & d & Q & _). destruct Q. unfold vw in v_w. unfold vrank. destruct (fwk s); lia.
    - assert (fhreach q s1) as R1 by (eapply FRS; [exact HR|eapply FSW; eauto]). specialize (IH R1 HT).
      assert (exists x, flog s2 = x ++ flog s) as (x & Ex).
      { clear -HRun HW. assert (exists x, flog s2 = x ++ flog s1) as (x & ->).
        { clear HW. induction HRun as [s0|n r0 s0 s1 s2 NW HW _ IH|n s0 s1 s2 HS E _ IH]; [exists []; reflexivity| |].
          - destruct IH as (x & ->). destruct (fhstep_log (fq_one q) s0 s1) as (z & ->); [eapply FSW; eauto|]. exists (x ++ z). rewrite app_assoc; reflexivity.
          - destruct IH as (x & ->). destruct (fhstep_log (fq_one q) s0 s1 HS) as (z & ->). exists (x ++ z). rewrite app_assoc; reflexivity. }
        destruct (fhstep_log (fq_one q) s s1) as (z & ->); [eapply FSW; eauto|]. exists (x ++ z). rewrite app_assoc; reflexivity. }
      assert (zlen (kaccepted (flog s)) + 2 < two64) as HT0 by (rewrite Ex in HT; pose proof (kaccepted_mono x (flog s)); lia).
      destruct (fhreach_inv q Hq Ho s HR HT0) as (A & d & Q & _). pose proof (favail_read_eq _ _ _ _ Q) as AR. destruct Q. unfold vw in v_w.
      assert (vrank (fq_one q) (fwk s1) < vrank (fq_one q) (fwk s)); [|lia].
      unfold fwexec in HW. destruct (fwk s) eqn:EW; try congruence; unfold vrank; try rewrite EW.
      + injection HW as <-. cbn. destruct (fflag s); lia.
      + injection HW as <-. cbn. destruct (_ =? 0); lia.
      + destruct (_ =? 0); injection HW as <-; cbn; [lia|]. rewrite take_min_eq. lia.
      + destruct (i <? n0) eqn:E.
        * destruct (mload _ _); cbn [bind] in HW; try discriminate.
          destruct (mstore _ _ _); cbn [bind] in HW; try discriminate. injection HW as <-; cbn. lia.
        * injection HW as <-; cbn. destruct (_ =? _); lia.
      + injection HW as <-; cbn. destruct (_ >=? _); lia.
      + injection HW as <-; cbn. lia.
      + injection HW as <-; cbn. destruct (_ =? _); lia.
      + injection HW as <-; cbn. lia.
    - assert (fhreach q s1) as R1 by (eapply FRS; eauto). specialize (IH R1 HT). rewrite E in IH. exact IH. }
  rewrite Ey in HT. pose proof (kaccepted_mono y (flog s)).
  destruct (fhreach_inv q Hq Ho s HR ltac:(lia)) as (A & d & Q & _). destruct Q. unfold vw in v_w.
  unfold vrank in B. destruct (fwk s); lia.
Qed.

Lemma fq_create_good (malloc : Z -> option (list Z)) one cap q :
  (forall k b, malloc k = Some b -> zlen b = k) ->
  1 <= one -> 1 <= cap -> (one * cap - 24 <= 1073741824 \/ one * cap - 24 = 2147483648) ->
  fq_create malloc one cap = Ret (Some q) ->
  (rb_in (fq_ring q) = 0 /\ rb_out (fq_ring q) = 0 /\ is_pow2 (rb_size (fq_ring q)) /\ rb_size (fq_ring q) <= zlen (rb_buf (fq_ring q))) /\
  fq_one q = one.
Proof.
  intros HM Ho Hc HB HC. unfold fq_create, fq_struct_size in HC.
  assert (1 <= one * cap) by nia.
  destruct ((one <? 1) || (cap <? 1)) eqn:E; [discriminate|]. rewrite u32_small in HC by (unfold two32; lia).
  unfold u64 in HC. rewrite Z.mod_small in HC by (unfold two64; lia).
  destruct (malloc (16 + one * cap)) as [b|] eqn:EM; [|discriminate].
  pose proof (HM _ _ EM) as Lb. destruct (zlen b <? 16) eqn:E8; [lia|].
  replace (16 + one * cap - 16) with (one * cap) in HC by lia. rewrite u32_small in HC by (unfold two32; lia).
  assert (zlen (zdrop 16 b) = one * cap) as L by (rewrite zlen_zdrop; lia).
  destruct (Z_lt_dec (one * cap) 28) as [SM|BG].
  - rewrite <- L, (create_with_mem_small (zdrop 16 b)) in HC by lia. cbn [bind] in HC. discriminate.
  - destruct (create_with_mem_spec (zdrop 16 b) ltac:(lia) ltac:(lia)) as (sz & P & B & C).
    rewrite L in C. rewrite C in HC. cbn [bind] in HC. injection HC as <-. cbn.
    split; [|reflexivity]. split; [reflexivity|]. split; [reflexivity|]. split; [exact P|]. rewrite zlen_zdrop by lia. lia.
Qed.
