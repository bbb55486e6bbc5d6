(** Proofs for C81, part 2: the consumer *)
From Verif Require Import MpliteProof2 MpliteProof6.
From Verif Require Import CBase SeqLib RingBuffer2Model RingBuffer2Proof MsgQueueModel MsgQueueSpec MsgQueueProof SpscModel SpscSpec SpscProof SpscProof2 SpscProof3 MqTsoModel MqTsoSpec MqTsoProof.

Lemma tc_move s D R p q c : tinv s D R p q -> coff c = coff (t_cp s) -> cpend c = cpend (t_cp s) -> tcinv (tset_cp s c) D R p -> tinv (tset_cp s c) D R p q.
Proof.
  intros [] E1 E2 HC.
  assert (TO : xout (tset_cp s c) D = xout s D) by (unfold xout; cbn [t_cp tset_cp]; congruence).
  split; rewrite ?TO; auto. cbn [t_cp tset_cp t_log]. rewrite E2. exact v_pops.
Qed.
Lemma used_pre_lt A B D R : A ++ B = D ++ R -> used D < used A -> exists m1 A', A = D ++ m1 :: A' /\ R = m1 :: A' ++ B.
Proof.
  revert D. induction A as [|a A IH]; intros D EE H.
  - cbn [used] in H. pose proof (used_nonneg D). lia.
  - destruct D as [|d D].
    + cbn in EE. exists a, A. split; [reflexivity|]. symmetry. exact EE.
    + cbn in EE. injection EE as -> EE. cbn [used] in H. destruct (IH D EE ltac:(lia)) as (m1 & A' & -> & ->). exists m1, A'. split; reflexivity.
Qed.
Lemma tnonempty s D R p q : tinv s D R p q -> coff (t_cp s) = 0 -> 5 <= p - xout s D -> exists m1 rest, R = m1 :: rest /\ pub D p m1.
Proof.
  intros [] E1 H. unfold xout in H. rewrite E1 in H. destruct v_bnd as (A & B & EE & HA). symmetry in EE. destruct (used_pre_lt A B D R EE ltac:(lia)) as (m1 & A' & -> & ->).
  exists m1, (A' ++ B). split; [reflexivity|]. unfold pub. rewrite used_app in HA. cbn [used] in HA. pose proof (used_nonneg A'). lia.
Qed.
Lemma tempty s D R p q : tinv s D R p q -> coff (t_cp s) = 0 -> cpend (t_cp s) = [] -> used (accepted (plain (wsync_at (ccall_at (t_log s))))) <= p -> p - xout s D < 5 -> none_missed (t_log s).
Proof.
  intros [] E1 E2 W H. unfold xout in H. rewrite E1 in H. unfold none_missed. pose proof (F2_length _ _ _ v_pops) as F. rewrite E2, app_nil_r in F. rewrite F.
  destruct (acc_ccall (t_log s)) as (x & EX). set (A := accepted (plain (wsync_at (ccall_at (t_log s))))) in *. rewrite EX, <- app_assoc in v_acc.
  destruct (Nat.le_gt_cases (length A) (length D)) as [LE|GT]; [exact LE|exfalso].
  assert (used D < used A).
  { assert (firstn (length D) A = D). { apply (f_equal (firstn (length D))) in v_acc. rewrite firstn_app, Nat.sub_diag in v_acc. cbn [firstn] in v_acc. rewrite app_nil_r, firstn_all in v_acc. rewrite v_acc at 2. rewrite firstn_app. replace (length D - length A)%nat with 0%nat by lia. cbn. rewrite app_nil_r. reflexivity. }
    rewrite <- (firstn_skipn (length D) A), H0, used_app. destruct (skipn (length D) A) as [|m r] eqn:SK.
    - apply (f_equal (@length (list Z))) in SK. rewrite skipn_length in SK. cbn in SK. lia.
    - cbn [used]. pose proof (used_nonneg r). pose proof (zlen_nonneg m). lia. }
  symmetry in v_acc. destruct (used_pre_lt A _ D R v_acc H0) as (m1 & A' & EA & ER). rewrite EA, used_app in W. cbn [used] in W. pose proof (used_nonneg A').
  rewrite ER in v_msz. apply Forall_app in v_msz as [_ FF]. inversion FF as [|? ? F1 _]; subst. unfold msz in F1. lia.
Qed.
Lemma xstm_head s D m1 rest i : 0 <= i < 4 -> znth (used D + i) (xstm s (D ++ m1 :: rest)) = znth i (le32 (zlen m1)).
Proof.
  intro Hi. unfold xstm, frames. rewrite map_app, concat_app, <- app_assoc. pose proof (zlen_frames D) as LD. unfold frames in LD.
  rewrite znth_app_r by lia. rewrite LD. replace (used D + i - used D) with i by lia.
  cbn [map concat]. rewrite <- !app_assoc. change (frame m1) with (le32 (zlen m1) ++ m1). rewrite <- !app_assoc. rewrite znth_app_l by (rewrite le32_len; lia). reflexivity.
Qed.
Lemma xstm_body s D m1 rest i : 0 <= i < zlen m1 -> znth (used D + 4 + i) (xstm s (D ++ m1 :: rest)) = znth i m1.
Proof.
  intro Hi. unfold xstm, frames. rewrite map_app, concat_app, <- app_assoc. pose proof (zlen_frames D) as LD. unfold frames in LD.
  rewrite znth_app_r by lia. rewrite LD. replace (used D + 4 + i - used D) with (4 + i) by lia.
  cbn [map concat]. rewrite <- !app_assoc. change (frame m1) with (le32 (zlen m1) ++ m1). rewrite <- !app_assoc. rewrite znth_app_r by (rewrite le32_len; lia).
  rewrite le32_len. replace (4 + i - 4) with i by lia. rewrite znth_app_l by lia. reflexivity.
Qed.
Lemma texpect_byte s D R p q j m1 rest i : tinv s D R p q -> R = m1 :: rest -> pub D p m1 -> 0 <= i < zlen (expect j m1) -> coff (t_cp s) = (match j with JRead _ _ _ => 4 | _ => 0 end) ->
  znth ((xout s D + i) mod t_size s) (t_mem s) = znth i (expect j m1).
Proof.
  intros [] -> PB Hi HC. unfold pub in PB. assert (xout s D + i < p) as HT.
  { unfold xout. rewrite HC. rewrite expect_len in Hi. pose proof (zlen_nonneg m1); destruct j; lia. }
  rewrite v_dat by lia. unfold xout. rewrite HC. rewrite expect_len in Hi. destruct j; cbn [expect].
  - rewrite Z.add_0_r. apply xstm_head; lia.
  - rewrite Z.add_0_r. apply xstm_head; lia.
  - rewrite Z.add_0_r. apply xstm_head; lia.
  - apply xstm_body; lia.
Qed.
Lemma tcstep_inv s D R p q : tinv s D R p q -> exists s' D' R', tcstep s = Ret s' /\ tinv s' D' R' p q /\ D' ++ R' = D ++ R.
Proof.
  intro I. pose proof (filled_eq _ _ _ _ _ I) as AR. pose proof (own_out_eq _ _ _ _ _ I) as OR. pose proof (pops_le _ _ _ _ _ I) as PL0.
  pose proof I as I0. destruct I. pose proof (pow2_bound _ v_pow) as B. pose proof (used_nonneg D) as UD. pose proof v_rng as (R1 & R2 & R3).
  unfold tcstep. pose proof v_c as v_c'. unfold tcinv in v_c'. destruct (t_cp s) as [| |t cap|j|j n start i tgt|t cap c t' sz'|n] eqn:EC.
  - exists s, D, R. auto.
  - rewrite AR. unfold hdr_size. destruct (p - xout s D <? 4 + 1) eqn:Q.
    + eexists _, D, R. split; [reflexivity|]. split; [|reflexivity]. apply tc_move; auto; try (rewrite EC; reflexivity).
      left. split; [reflexivity|]. apply (tempty s D R p q); auto; try (rewrite EC; reflexivity). lia.
    + eexists _, D, R. split; [reflexivity|]. split; [|reflexivity]. apply tc_move; auto; try (rewrite EC; reflexivity).
      destruct (tnonempty s D R p q) as (m1 & rest & HR & PB); auto; try (rewrite EC; reflexivity); [lia|].
      exists m1, rest. auto.
  - destruct v_c' as (A1 & A2 & A3). rewrite AR. unfold hdr_size. destruct (p - xout s D <? 4 + 1) eqn:Q.
    + eexists _, D, R. split; [reflexivity|]. split; [|reflexivity]. apply tc_move; auto; try (rewrite EC; reflexivity).
      right; left. split; [reflexivity|]. split; [reflexivity|]. split; [reflexivity|]. apply (tempty s D R p q); auto; try (rewrite EC; reflexivity). lia.
    + eexists _, D, R. split; [reflexivity|]. split; [|reflexivity]. apply tc_move; auto; try (rewrite EC; reflexivity).
      destruct (tnonempty s D R p q) as (m1 & rest & HR & PB); auto; try (rewrite EC; reflexivity); [lia|].
      exists m1, rest. split; [exact HR|]. split; [exact PB|]. split; [exact A1|]. split; [exact A2|]. unfold pub, xout in *. rewrite EC. cbn [coff]. lia.
  - destruct v_c' as (m1 & rest & HR & PB & HJ). unfold pub in PB.
    assert (msz m1) as Hm1 by (rewrite HR in v_msz; apply Forall_app in v_msz as [_ F]; inversion F; auto).
    unfold msz in Hm1.
    assert (jreq j <= p - xout s D /\ 0 < jreq j) as [Hreq Hpos] by (unfold xout; rewrite EC; destruct j; cbn [coff jreq] in *; unfold hdr_size; lia).
    destruct ((jreq j =? 0) || (filled s =? 0)) eqn:Q; [apply orb_true_iff in Q as [Q|Q]; lia|].
    rewrite take_min_eq, AR, Z.min_l by lia. rewrite OR, pow2_mask by (auto; apply u32_range). rewrite pow2_mod_u32 by exact v_pow.
    eexists _, D, R. split; [reflexivity|]. split; [|reflexivity]. apply tc_move; auto; try (rewrite EC; destruct j; reflexivity).
    unfold tcinv; cbn [t_cp tset_cp t_size]. split; [exists m1, rest; auto|]. split; [reflexivity|].
    split; [unfold xout; cbn [t_cp tset_cp]; rewrite EC; destruct j; reflexivity|].
    split; [destruct j; cbn [jtgt]; lia|]. intros m0 r0 E0. destruct j; cbn [jtgt]; reflexivity.
  - destruct v_c' as (J & Hn & Hst & Hi & HT). pose proof J as (m1 & rest & HR & PB & HJ).
    assert (msz m1) as Hm1 by (rewrite HR in v_msz; apply Forall_app in v_msz as [_ F]; inversion F; auto).
    unfold msz in Hm1. specialize (HT m1 rest HR). pose proof PB as PB'. unfold pub in PB'.
    assert (coff (t_cp s) = match j with JRead _ _ _ => 4 | _ => 0 end) as HCO by (rewrite EC; destruct j; reflexivity).
    assert (n = zlen (expect j m1)) as Hne by (rewrite expect_len, Hn; destruct j; cbn [jreq]; unfold hdr_size; try reflexivity; apply HJ).
    assert (n <= p - xout s D) as Hav by (unfold xout; rewrite HCO, Hne, expect_len; destruct j; lia).
    assert (0 <= xout s D) as TO0 by lia.
    destruct (i <? n) eqn:EI.
    + destruct (znth_in_range i (expect j m1)) as (b & Hb); [lia|].
      assert (znth ((xout s D + i) mod t_size s) (t_mem s) = Some b) as HB by (rewrite (texpect_byte s D R p q j m1 rest) by (auto; lia); exact Hb).
      rewrite Hst, place_mod by (auto; lia). rewrite (mload_znth _ _ _ HB). cbn [bind].
      destruct (jtgt j) as [t0|] eqn:ET; [|lia].
      assert (i < zlen t0) as Ht0.
      { destruct j; cbn [jtgt] in ET; try discriminate; injection ET as <-.
        - change (zlen [0; 0; 0; 0]) with 4. rewrite expect_len in Hne. lia.
        - change (zlen [0; 0; 0; 0]) with 4. rewrite expect_len in Hne. lia.
        - rewrite expect_len in Hne. lia. }
      destruct (fill_step (expect j m1) t0 i b) as (t1 & HS & Ht1); [lia|lia|exact Hb|].
      rewrite HT, HS. cbn [bind]. eexists _, D, R. split; [reflexivity|]. split; [|reflexivity]. rewrite <- Hst.
      apply tc_move; auto; try (rewrite EC; destruct j; reflexivity).
      unfold tcinv; cbn [t_cp tset_cp t_size]. split; [exact J|]. split; [exact Hn|].
      split; [rewrite Hst; unfold xout; cbn [t_cp tset_cp]; rewrite EC; destruct j; reflexivity|].
      split; [lia|]. intros m0 r0 E0. rewrite HR in E0. injection E0 as <- <-. rewrite ET. exact Ht1.
    + assert (i = n) by lia. subst i.
      destruct j as [|t cap a|t cap x|t cap x]; cbn [jpeek jtgt expect] in *.
      * unfold cfinish. rewrite Hn, Z.eqb_refl. cbn [assert_abort bind].
        assert (tgt = le32 (zlen m1)) as -> by (rewrite HT, Hn; reflexivity).
        rewrite le32_roundtrip by lia. cbn [bind]. eexists _, D, R. split; [reflexivity|]. split; [|reflexivity].
        apply tc_move; auto; try (rewrite EC; reflexivity). right. exists m1, rest. auto.
      * unfold cfinish. rewrite Hn, Z.eqb_refl. cbn [assert_abort bind].
        assert (tgt = le32 (zlen m1)) as -> by (rewrite HT, Hn; reflexivity).
        rewrite le32_roundtrip by lia. cbn [bind]. unfold hdr_size.
        destruct HJ as (Hcap & Hct & Ha). rewrite u64_small' by (unfold two64, two32 in *; lia).
        destruct (a <? 4 + zlen m1) eqn:EA; [lia|].
        destruct (zlen m1 >? cap) eqn:EG.
        -- cbn [bind]. eexists _, D, R. split; [reflexivity|]. split; [|reflexivity].
           apply tc_move; auto; try (rewrite EC; reflexivity). right; right. split; [reflexivity|]. split; [reflexivity|].
           exists m1, rest. repeat split; auto; lia.
        -- cbn [bind]. eexists _, D, R. split; [reflexivity|]. split; [|reflexivity].
           apply tc_move; auto; try (rewrite EC; reflexivity). exists m1, rest. repeat split; auto; lia.
      * unfold cfinish. rewrite Hn, Z.eqb_refl. cbn [assert_abort bind jreq]. unfold hdr_size.
        eexists _, D, R. split; [reflexivity|]. split; [|reflexivity].
        set (s' := tset_cp (r_store s (u32 (own_out s + 4))) (C235 (JRead t cap x))).
        assert (TO : xout s' D = xout s D + 4) by (unfold xout; cbn [t_cp tset_cp s' coff]; rewrite EC; cbn [coff]; lia).
        cbn [jreq] in Hn. unfold hdr_size in Hn.
        split; rewrite ?TO; auto.
        -- change (xin s' (D ++ R)) with (xin s (D ++ R)). change (t_size s') with (t_size s). lia.
        -- intros k Hk. apply v_dat. lia.
        -- cbn [s' t_rbuf tset_cp r_store tset_rbuf]. rewrite OR, u32_add. apply (goodr_app (xout s D) q (t_rbuf s) (xout s D + 4)); [lia|exact v_rb].
      * unfold cfinish. rewrite Hn, Z.eqb_refl. cbn [assert_abort bind jreq].
        destruct HJ as (Hcap & Hct & Hx & Hxc). cbn [jreq] in Hn.
        set (s' := tset_cp (r_store s (u32 (own_out s + x))) (CRet t cap MQ_SUCCESS tgt cap)).
        assert ((D ++ [m1]) ++ rest = D ++ R) as ED by (rewrite <- app_assoc, HR; reflexivity).
        exists s', (D ++ [m1]), rest. split; [reflexivity|]. split; [|exact ED].
        assert (TO : xout s' (D ++ [m1]) = xout s D + x) by (unfold xout; cbn [t_cp tset_cp s' coff]; rewrite EC; cbn [coff]; rewrite used_app; cbn [used]; lia).
        split; rewrite ?TO, ?ED; auto.
        -- change (xin s' (D ++ R)) with (xin s (D ++ R)). change (t_size s') with (t_size s). lia.
        -- intros k Hk. apply v_dat. lia.
        -- cbn [s' t_rbuf tset_cp r_store tset_rbuf]. rewrite OR, u32_add. apply (goodr_app (xout s D) q (t_rbuf s) (xout s D + x)); [lia|exact v_rb].
        -- left; auto.
        -- cbn [s' t_cp tset_cp cpend]. unfold MQ_SUCCESS. change (0 =? 0) with true. cbv iota.
           cbn [cpend] in v_pops. rewrite app_nil_r in v_pops. apply Forall2_app; [exact v_pops|].
           constructor; [|constructor]. unfold stored. split; [lia|]. rewrite HT, Hn, Hx. apply fill_done.
  - eexists _, D, R. split; [reflexivity|]. split; [|reflexivity]. set (s' := tset_cp (temit s (E (EPopRet t cap c t' sz'))) CIdle).
    assert (TO : xout s' D = xout s D) by (unfold xout; cbn [t_cp tset_cp s']; rewrite EC; reflexivity).
    split; rewrite ?TO; auto.
    + exact Logic.I.
    + change (plain (t_log s')) with (EPopRet t cap c t' sz' :: plain (t_log s)). cbn [pops cpend s' t_cp tset_cp] in *. destruct (c =? 0); rewrite ?app_nil_r in *; exact v_pops.
    + split; [|exact v_ev]. cbn [tev_ok].
      pose proof (F2_length _ _ _ v_pops) as LP. rewrite app_length in LP.
      destruct v_c' as [[-> ->]|[H|(-> & -> & m1 & rest & HR & Hcap & ->)]].
      * left. split; [reflexivity|]. split; [reflexivity|]. cbn [cpend] in *. change (0 =? 0) with true in *. cbv iota in *.
        apply Forall2_app_inv_l in v_pops as (D1 & D2 & F1 & F2 & ED). inversion F2 as [|? m ? ? F3 F4]; subst.
        inversion F4; subst. exists m. destruct F3 as [F3 F5]. split; [|auto].
        unfold next_msg. rewrite v_sent, <- !app_assoc. pose proof (F2_length _ _ _ F1) as L1. rewrite L1.
        rewrite nth_error_app2 by lia. rewrite Nat.sub_diag. reflexivity.
      * right; left. exact H.
      * right; right. split; [reflexivity|]. split; [reflexivity|]. exists m1. split; [|auto].
        unfold next_msg. rewrite v_sent, HR, <- app_assoc. cbn [cpend] in LP. change (6 =? 0) with false in LP. cbn in LP.
        rewrite nth_error_app2 by lia. replace (length (pops (plain (t_log s))) - length D)%nat with 0%nat by lia. reflexivity.
  - eexists _, D, R. split; [reflexivity|]. split; [|reflexivity]. set (s' := tset_cp (temit s (E (ENextRet n))) CIdle).
    assert (TO : xout s' D = xout s D) by (unfold xout; cbn [t_cp tset_cp s']; rewrite EC; reflexivity).
    split; rewrite ?TO; auto.
    + exact Logic.I.
    + split; [|exact v_ev]. cbn [tev_ok].
      pose proof (F2_length _ _ _ v_pops) as LP. rewrite app_length in LP.
      destruct v_c' as [H|(m1 & rest & HR & ->)]; [left; exact H|].
      right. exists m1. split; [|reflexivity].
      unfold next_msg. rewrite v_sent, HR, <- app_assoc. cbn in LP.
      rewrite nth_error_app2 by lia. replace (length (pops (plain (t_log s))) - length D)%nat with 0%nat by lia. reflexivity.
Qed.
