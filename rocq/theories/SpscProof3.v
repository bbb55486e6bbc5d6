From Verif Require Import MpliteProof2 MpliteProof6.
From Verif Require Import CBase SeqLib RingBuffer2Model RingBuffer2Proof MsgQueueModel MsgQueueSpec MsgQueueProof
  SpscModel SpscSpec SpscProof SpscProof2.

Lemma stream_cp s c D R : stream (set_cp s c) D R = stream s D R. Proof. reflexivity. Qed.

(** a consumer step that only moves the consumer, not the queue *)
Lemma cmove s D R c : inv s D R -> coff c = coff (cp s) -> cpend c = cpend (cp s) ->
  cinv (set_cp s c) D R -> inv (set_cp s c) D R.
Proof.
  intros I E1 E2 HC. destruct I.
  assert (tout (set_cp s c) D = tout s D) as TO by (unfold tout; cbn [cp set_cp]; congruence).
  constructor; cbn [csize mem cin cout log pp cp set_cp]; rewrite ?TO; auto.
  - unfold pinv in *. cbn [csize mem cin cout log pp cp set_cp]. rewrite TO. exact i_p.
  - rewrite E2. exact i_pops.
Qed.

Lemma nonempty_next s D R : inv s D R -> coff (cp s) = 0 -> cpend (cp s) = [] ->
  5 <= tin s D R - tout s D -> exists m1 rest, R = m1 :: rest /\ 4 + zlen m1 <= tin s D R - tout s D.
Proof.
  intros I E1 E2 H. destruct R as [|m1 rest].
  - exfalso. unfold tin, tout in H. rewrite app_nil_r, E1 in H. pose proof (poff_range (pp s)). lia.
  - exists m1, rest. split; [reflexivity|]. unfold tin, tout. rewrite used_app, E1. cbn [used].
    pose proof (used_nonneg rest). pose proof (poff_range (pp s)). lia.
Qed.
Lemma empty_next s D R : inv s D R -> coff (cp s) = 0 -> cpend (cp s) = [] ->
  tin s D R - tout s D < 5 -> R = [] /\ nothing_missed (log s).
Proof.
  intros I E1 E2 H. assert (R = []) as ->.
  { destruct R as [|m1 rest]; [reflexivity|]. exfalso. unfold tin, tout in H. rewrite used_app, E1 in H. cbn [used] in H.
    pose proof (used_nonneg rest). pose proof (poff_range (pp s)).
    destruct I. apply Forall_app in i_msz as [_ F]. inversion F as [|? ? F1 _]; subst. unfold msz in F1. lia. }
  split; [reflexivity|]. unfold nothing_missed. destruct I.
  pose proof (F2_length _ _ _ i_pops) as F. rewrite E2, app_nil_r in F. rewrite F.
  pose proof (accepted_at_ccall (log s)). rewrite app_nil_r in i_acc.
  assert (length D = length (accepted (log s)) + length (ppend (pp s)))%nat by (rewrite i_acc, app_length; reflexivity). lia.
Qed.

Lemma expect_len j m1 : zlen (expect j m1) = match j with JRead _ _ _ => zlen m1 | _ => 4 end.
Proof. destruct j; reflexivity. Qed.

Lemma expect_byte s D R j m1 rest i : inv s D R -> R = m1 :: rest -> 0 <= i < zlen (expect j m1) ->
  coff (cp s) = (match j with JRead _ _ _ => 4 | _ => 0 end) ->
  znth ((tout s D + i) mod csize s) (mem s) = znth i (expect j m1).
Proof.
  intros I -> Hi HC. assert (tout s D + i < tin s D (m1 :: rest)) as HT.
  { unfold tin, tout. rewrite used_app. cbn [used]. pose proof (used_nonneg rest). pose proof (poff_range (pp s)).
    rewrite HC. rewrite expect_len in Hi. pose proof (zlen_nonneg m1); destruct j; lia. }
  destruct I. rewrite i_mem by lia. unfold tout. rewrite HC. rewrite expect_len in Hi. destruct j; cbn [expect].
  - rewrite Z.add_0_r. apply znth_stream_head; lia.
  - rewrite Z.add_0_r. apply znth_stream_head; lia.
  - rewrite Z.add_0_r. apply znth_stream_head; lia.
  - apply znth_stream_body; lia.
Qed.

Lemma fill_step (e t : list Z) i b : 0 <= i < zlen e -> i < zlen t -> znth i e = Some b ->
  exists t', mstore (ztake i e ++ zdrop i t) i b = Ret t' /\ t' = ztake (i + 1) e ++ zdrop (i + 1) t.
Proof.
  intros Hi Ht Hb. assert (zlen (ztake i e) = i) as L1 by (apply zlen_ztake; lia).
  assert (zlen (zdrop i t) = zlen t - i) as L2 by (apply zlen_zdrop; lia).
  destruct (mstore_ok (ztake i e ++ zdrop i t) i b) as (t' & HS & HL & HX & HO).
  { rewrite zlen_app. lia. }
  exists t'. split; [exact HS|]. rewrite zlen_app in HL.
  assert (zlen (ztake (i + 1) e) = i + 1) as L3 by (apply zlen_ztake; lia).
  apply znth_ext.
  - rewrite zlen_app, L3, zlen_zdrop by lia. lia.
  - intros j Hj. destruct (Z.eq_dec j i) as [->|NE].
    + rewrite HX. rewrite znth_app_l by lia. rewrite znth_ztake by lia. congruence.
    + rewrite HO by exact NE. destruct (Z_lt_dec j i).
      * rewrite !znth_app_l by lia. rewrite !znth_ztake by lia. reflexivity.
      * rewrite !znth_app_r by lia. rewrite L1, L3, !znth_zdrop by lia. f_equal. lia.
Qed.
Lemma fill_done (e t : list Z) : ztake (zlen e) e ++ zdrop (zlen e) t = e ++ zdrop (zlen e) t.
Proof. f_equal. apply ztake_all. lia. Qed.

Lemma cstep_inv s D R : inv s D R -> exists s' D' R', cstep s = Ret s' /\ inv s' D' R'.
Proof.
  intro I. pose proof (avail_read_eq s D R I) as AR.
  pose proof I as I0. destruct I. pose proof (pow2_bound _ i_pow) as B. pose proof (used_nonneg D) as UD.
  unfold cstep. pose proof i_c as i_c'. unfold cinv in i_c'. destruct (cp s) as [| |t cap|j|j n start i tgt|t cap c t' sz'|n] eqn:EC.
  - exists s, D, R. split; [reflexivity|exact I0].
  - rewrite AR. unfold hdr_size. destruct (tin s D R - tout s D <? 4 + 1) eqn:E.
    + eexists _, D, R. split; [reflexivity|]. apply cmove; auto; try (rewrite EC; reflexivity).
      left. split; [reflexivity|]. apply (empty_next s D R); auto; try (rewrite EC; reflexivity). lia.
    + eexists _, D, R. split; [reflexivity|]. apply cmove; auto; try (rewrite EC; reflexivity).
      destruct (nonempty_next s D R) as (m1 & rest & HR & _); auto; try (rewrite EC; reflexivity). lia.
      exists m1, rest. auto.
  - rewrite AR. unfold hdr_size. destruct (tin s D R - tout s D <? 4 + 1) eqn:E.
    + eexists _, D, R. split; [reflexivity|]. apply cmove; auto; try (rewrite EC; reflexivity).
      right; left. split; [reflexivity|]. split; [reflexivity|]. split; [reflexivity|].
      apply (empty_next s D R); auto; try (rewrite EC; reflexivity). lia.
    + eexists _, D, R. split; [reflexivity|]. apply cmove; auto; try (rewrite EC; reflexivity).
      destruct (nonempty_next s D R) as (m1 & rest & HR & HL); auto; try (rewrite EC; reflexivity). lia.
      exists m1, rest. split; [exact HR|]. destruct i_c' as [A1 A2]. auto.
  - (* start of a read *)
    destruct i_c' as (m1 & rest & HR & HJ).
    assert (msz m1) as Hm1.
    { rewrite HR in i_msz. apply Forall_app in i_msz as [_ F]. inversion F; auto. }
    unfold msz in Hm1.
    assert (jreq j <= tin s D R - tout s D /\ 0 < jreq j) as [Hreq Hpos].
    { unfold tin, tout. rewrite HR, used_app, EC. cbn [used]. pose proof (used_nonneg rest). pose proof (poff_range (pp s)).
      destruct j; cbn [coff jreq] in *; unfold hdr_size; try lia. }
    destruct ((jreq j =? 0) || (avail_read s =? 0)) eqn:E; [apply orb_true_iff in E as [E|E]; lia|].
    rewrite take_min_eq, AR, Z.min_l by lia.
    rewrite i_out, pow2_mask by (auto; apply u32_range). rewrite pow2_mod_u32 by exact i_pow.
    eexists _, D, R. split; [reflexivity|]. apply cmove; auto; try (rewrite EC; destruct j; reflexivity).
    unfold cinv; cbn [cp set_cp csize]. split; [exists m1, rest; auto|]. split; [reflexivity|].
    split; [unfold tout; cbn [cp set_cp]; rewrite EC; destruct j; reflexivity|].
    split; [destruct j; cbn [jtgt]; lia|].
    intros m0 r0 E0. destruct j; cbn [jtgt]; reflexivity.
  - (* copying *)
    destruct i_c' as (J & Hn & Hst & Hi & HT). pose proof J as (m1 & rest & HR & HJ).
    assert (msz m1) as Hm1.
    { rewrite HR in i_msz. apply Forall_app in i_msz as [_ F]. inversion F; auto. }
    unfold msz in Hm1. specialize (HT m1 rest HR).
    assert (coff (cp s) = match j with JRead _ _ _ => 4 | _ => 0 end) as HCO by (rewrite EC; destruct j; reflexivity).
    assert (n = zlen (expect j m1)) as Hne.
    { rewrite expect_len, Hn. destruct j; cbn [jreq]; unfold hdr_size; try reflexivity. apply HJ. }
    assert (n <= tin s D R - tout s D) as Hav.
    { unfold tin, tout. rewrite HR, used_app, HCO. cbn [used]. pose proof (used_nonneg rest). pose proof (poff_range (pp s)).
      rewrite Hne, expect_len. destruct j; lia. }
    assert (0 <= tout s D) as TO0 by (unfold tout; pose proof (coff_range (cp s)); lia).
    destruct (i <? n) eqn:E.
    + (* one byte *)
      destruct (znth_in_range i (expect j m1)) as (b & Hb); [lia|].
      assert (znth ((tout s D + i) mod csize s) (mem s) = Some b) as HB.
      { rewrite (expect_byte s D R j m1 rest) by (auto; lia). exact Hb. }
      rewrite Hst, place_mod by (auto; lia). rewrite (mload_znth _ _ _ HB). cbn [bind].
      destruct (jtgt j) as [t0|] eqn:ET; [|lia].
      assert (i < zlen t0) as Ht0.
      { destruct j; cbn [jtgt] in ET; try discriminate; injection ET as <-.
        - change (zlen [0; 0; 0; 0]) with 4. rewrite expect_len in Hne. lia.
        - change (zlen [0; 0; 0; 0]) with 4. rewrite expect_len in Hne. lia.
        - rewrite expect_len in Hne. lia. }
      destruct (fill_step (expect j m1) t0 i b) as (t1 & HS & Ht1); [lia|lia|exact Hb|].
      rewrite HT, HS. cbn [bind]. eexists _, D, R. split; [reflexivity|]. rewrite <- Hst.
      apply cmove; auto; try (rewrite EC; destruct j; reflexivity).
      unfold cinv; cbn [cp set_cp csize]. split; [exact J|]. split; [exact Hn|].
      split; [rewrite Hst; unfold tout; cbn [cp set_cp]; rewrite EC; destruct j; reflexivity|].
      split; [lia|].
      intros m0 r0 E0. rewrite HR in E0. injection E0 as <- <-. rewrite ET. exact Ht1.
    + assert (i = n) by lia. subst i.
      destruct j as [|t cap a|t cap x|t cap x]; cbn [jpeek jtgt expect] in *.
      * (* next_msg_size *)
        unfold cfinish. rewrite Hn, Z.eqb_refl. cbn [assert_abort bind].
        assert (tgt = le32 (zlen m1)) as ->.
        { rewrite HT, Hn. reflexivity. }
        rewrite le32_roundtrip by lia. cbn [bind]. eexists _, D, R. split; [reflexivity|].
        apply cmove; auto; try (rewrite EC; reflexivity). right. exists m1, rest. auto.
      * (* peek in pop *)
        unfold cfinish. rewrite Hn, Z.eqb_refl. cbn [assert_abort bind].
        assert (tgt = le32 (zlen m1)) as ->.
        { rewrite HT, Hn. reflexivity. }
        rewrite le32_roundtrip by lia. cbn [bind]. unfold hdr_size.
        destruct HJ as (Hcap & Hct & Ha). rewrite u64_small' by (unfold two64, two32 in *; lia).
        destruct (a <? 4 + zlen m1) eqn:EA; [lia|].
        destruct (zlen m1 >? cap) eqn:EG.
        -- cbn [bind]. eexists _, D, R. split; [reflexivity|].
           apply cmove; auto; try (rewrite EC; reflexivity). right; right. split; [reflexivity|]. split; [reflexivity|].
           exists m1, rest. repeat split; auto; lia.
        -- cbn [bind]. eexists _, D, R. split; [reflexivity|].
           apply cmove; auto; try (rewrite EC; reflexivity). exists m1, rest. repeat split; auto; lia.
      * (* discard: out += 4 *)
        unfold cfinish. rewrite Hn, Z.eqb_refl. cbn [assert_abort bind jreq]. unfold hdr_size.
        eexists _, D, R. split; [reflexivity|].
        set (s' := set_cp (set_out s (u32 (cout s + 4))) (C235 (JRead t cap x))).
        assert (tout s' D = tout s D + 4) as TO by (unfold tout; cbn [cp set_cp s' coff]; rewrite EC; cbn [coff]; lia).
        assert (tin s' D R = tin s D R) as TI by reflexivity.
        constructor; rewrite ?TI, ?TO; cbn [s' csize mem cin cout log pp cp set_cp set_out]; auto.
        -- rewrite i_out. apply u32_add.
        -- cbn [jreq] in Hn. unfold hdr_size in Hn. lia.
        -- intros k Hk. apply i_mem. lia.
        -- apply (pinv_stable s s' D R); auto. lia.
      * (* read: out += message size *)
        unfold cfinish. rewrite Hn, Z.eqb_refl. cbn [assert_abort bind jreq].
        destruct HJ as (Hcap & Hct & Hx & Hxc). cbn [jreq] in Hn.
        set (s' := set_cp (set_out s (u32 (cout s + x))) (CRet t cap MQ_SUCCESS tgt cap)).
        exists s', (D ++ [m1]), rest. split; [reflexivity|].
        assert ((D ++ [m1]) ++ rest = D ++ R) as ED by (rewrite <- app_assoc, HR; reflexivity).
        assert (tout s' (D ++ [m1]) = tout s D + x) as TO.
        { unfold tout; cbn [cp set_cp s' coff]; rewrite EC; cbn [coff]. rewrite used_app. cbn [used]. lia. }
        assert (tin s' (D ++ [m1]) rest = tin s D R) as TI.
        { unfold tin. rewrite ED. reflexivity. }
        constructor; rewrite ?TI, ?TO, ?ED; cbn [s' csize mem cin cout log pp cp set_cp set_out]; auto.
        -- rewrite i_out. apply u32_add.
        -- lia.
        -- intros k Hk. unfold stream. rewrite ED. apply i_mem. lia.
        -- apply (pinv_stable s s' D R); auto. lia.
        -- left; auto.
        -- cbn [cpend]. unfold MQ_SUCCESS. change (0 =? 0) with true. cbn iota.
           cbn [cpend] in i_pops. rewrite app_nil_r in i_pops. apply Forall2_app; [exact i_pops|].
           constructor; [|constructor]. unfold stored. split; [lia|]. rewrite HT, Hn, Hx. apply fill_done.
  - (* pop returns *)
    eexists _, D, R. split; [reflexivity|].
    assert (tout (set_cp (emit s (EPopRet t cap c t' sz')) CIdle) D = tout s D) as TO.
    { unfold tout; cbn [cp set_cp]. rewrite EC. reflexivity. }
    constructor; rewrite ?TO; cbn [csize mem cin cout log pp cp set_cp emit]; auto.
    + apply (pinv_stable s _ D R); auto. lia.
    + exact Logic.I.
    + cbn [pops cpend] in *. destruct (c =? 0); rewrite ?app_nil_r in *; exact i_pops.
    + cbn [events_ok]. split; [|exact i_ev]. cbn [event_ok].
      pose proof (F2_length _ _ _ i_pops) as LP. rewrite app_length in LP.
      destruct i_c' as [[-> ->]|[H|(-> & -> & m1 & rest & HR & Hcap & ->)]].
      * left. split; [reflexivity|]. split; [reflexivity|]. cbn [cpend] in *. change (0 =? 0) with true in *. cbn iota in *.
        apply Forall2_app_inv_l in i_pops as (D1 & D2 & F1 & F2 & ED). inversion F2 as [|? m ? ? F3 F4]; subst.
        inversion F4; subst. exists m. destruct F3 as [F3 F5]. split; [|auto].
        unfold next_msg. rewrite i_sent, <- !app_assoc. pose proof (F2_length _ _ _ F1) as L1. rewrite L1.
        rewrite nth_error_app2 by lia. rewrite Nat.sub_diag. reflexivity.
      * right; left. exact H.
      * right; right. split; [reflexivity|]. split; [reflexivity|]. exists m1. split; [|auto].
        unfold next_msg. rewrite i_sent, HR, <- app_assoc. cbn [cpend] in LP. change (6 =? 0) with false in LP. cbn in LP.
        rewrite nth_error_app2 by lia. replace (length (pops (log s)) - length D)%nat with 0%nat by lia. reflexivity.
  - (* next_msg_size returns *)
    eexists _, D, R. split; [reflexivity|].
    assert (tout (set_cp (emit s (ENextRet n)) CIdle) D = tout s D) as TO.
    { unfold tout; cbn [cp set_cp]. rewrite EC. reflexivity. }
    constructor; rewrite ?TO; cbn [csize mem cin cout log pp cp set_cp emit]; auto.
    + apply (pinv_stable s _ D R); auto. lia.
    + exact Logic.I.
    + cbn [events_ok]. split; [|exact i_ev]. cbn [event_ok].
      pose proof (F2_length _ _ _ i_pops) as LP. rewrite app_length in LP.
      destruct i_c' as [H|(m1 & rest & HR & ->)]; [left; exact H|].
      right. exists m1. split; [|reflexivity].
      unfold next_msg. rewrite i_sent, HR, <- app_assoc. cbn in LP.
      rewrite nth_error_app2 by lia. replace (length (pops (log s)) - length D)%nat with 0%nat by lia. reflexivity.
Qed.
