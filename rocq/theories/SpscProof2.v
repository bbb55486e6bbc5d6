From Verif Require Import MpliteProof2 MpliteProof6.
From Verif Require Import CBase SeqLib RingBuffer2Model RingBuffer2Proof MsgQueueModel MsgQueueSpec MsgQueueProof
  SpscModel SpscSpec SpscProof.

Lemma cinv_stable s s' D R X : cp s' = cp s -> csize s' = csize s ->
  (nothing_missed (log s) -> nothing_missed (log s')) -> cinv s D R -> cinv s' D (R ++ X).
Proof.
  intros Ec Es Hn H. unfold cinv, tout in *. rewrite Ec, Es.
  assert (forall j, jinv R j -> jinv (R ++ X) j) as HJ.
  { intros j (m1 & rest & -> & Hj). exists m1, (rest ++ X). split; [reflexivity|exact Hj]. }
  destruct (cp s) as [| |t cap|j|j n start i tgt|t cap c t' sz'|n]; auto.
  - destruct H as (J & Hn' & Hs & Hi & HT). split; [auto|]. split; [exact Hn'|]. split; [exact Hs|]. split; [exact Hi|].
    intros m1 rest E. destruct J as (m0 & r0 & -> & _). cbn in E. injection E as <- <-. apply (HT m0 r0 eq_refl).
  - destruct H as [H|[(A & B & C & E)|(A & B & m1 & rest & -> & C)]]; auto.
    + right; left; auto.
    + right; right. split; [exact A|]. split; [exact B|]. exists m1, (rest ++ X). split; [reflexivity|exact C].
  - destruct H as [[A B]|(m1 & rest & -> & C)]; auto. right. exists m1, (rest ++ X). split; [reflexivity|exact C].
Qed.
Lemma pinv_stable s s' D R D' R' : pp s' = pp s -> csize s' = csize s -> mem s' = mem s ->
  D' ++ R' = D ++ R -> tout s D <= tout s' D' -> at_pcall (log s') = at_pcall (log s) ->
  pinv s D R -> pinv s' D' R'.
Proof.
  intros Ep Es Em ED Ho El H. unfold pinv, tin in *. rewrite Ep, Es, Em, ED, El.
  destruct (pp s) as [|m|hd m|hd m n start i|m c]; auto.
  - destruct H; split; [auto|lia].
  - destruct H as (A & B & C). split; [auto|]. split; [lia|exact C].
Qed.

Lemma F2_length {A B} (P : A -> B -> Prop) l1 l2 : Forall2 P l1 l2 -> length l1 = length l2.
Proof. induction 1; cbn; congruence. Qed.
Lemma used_skipn k : forall q, (k <= length q)%nat -> used (skipn k q) + used (firstn k q) = used q.
Proof. intros q H. rewrite <- (firstn_skipn k q) at 3. rewrite used_app. lia. Qed.
Lemma used_firstn_le k D : (k <= length D)%nat -> used (firstn k D) <= used D.
Proof.
  intro H. rewrite <- (firstn_skipn k D) at 2. rewrite used_app. pose proof (used_nonneg (skipn k D)). lia.
Qed.
Lemma removelast_snoc {A} (l : list A) x : removelast (l ++ [x]) = l.
Proof. apply removelast_last. Qed.

Lemma psrc_len hd m : zlen (psrc hd m) = if hd then 4 else zlen m.
Proof. destruct hd; reflexivity. Qed.

Lemma pstep_inv s D R : inv s D R -> exists s' R', pstep s = Ret s' /\ inv s' D R'.
Proof.
  intro I. pose proof (avail_read_eq s D R I) as AR. pose proof (avail_write_eq s D R I) as AW.
  pose proof I as I0. destruct I. pose proof (pow2_bound _ i_pow) as B. pose proof (used_nonneg D) as UD.
  pose proof (used_nonneg (D ++ R)) as UM. pose proof (poff_range (pp s)) as PO. pose proof (coff_range (cp s)) as CO.
  unfold pstep. unfold pinv in i_p. destruct (pp s) as [|m|hd m|hd m n start i|m c] eqn:EP.
  - exists s, R. split; [reflexivity|exact I0].
  - (* line 44 *)
    destruct i_p as [Hm HA]. unfold msz in Hm. rewrite AW. unfold hdr_size.
    rewrite u64_small' by (unfold two64, two32 in *; lia).
    exists (set_pp s (if csize s - (tin s D R - tout s D) <? 4 + zlen m then PRet m MQ_FULL else P196 true m)), R.
    split; [reflexivity|]. unfold MQ_FULL. destruct (csize s - (tin s D R - tout s D) <? 4 + zlen m) eqn:E.
    + constructor; unfold tin, tout, stream, pinv, cinv in *; cbn [csize mem cin cout log pp cp set_pp poff phead pflight ppend] in *;
        try rewrite EP in *; auto.
      split; [exact Hm|]. right. split; [reflexivity|].
      unfold waiting. rewrite HA. pose proof (pops_at_pcall (log s)) as PL.
      assert (length (pops (log s)) <= length D)%nat as LD.
      { pose proof (F2_length _ _ _ i_pops) as F. rewrite app_length in F. lia. }
      rewrite occupied_used. pose proof (used_skipn (length (pops (at_pcall (log s)))) (D ++ R)) as K.
      rewrite app_length in K. specialize (K ltac:(lia)).
      rewrite firstn_app in K. replace (length (pops (at_pcall (log s))) - length D)%nat with 0%nat in K by lia.
      cbn [firstn] in K. rewrite app_nil_r in K.
      pose proof (used_firstn_le (length (pops (at_pcall (log s)))) D ltac:(lia)). cbn [poff] in *. lia.
    + constructor; unfold tin, tout, stream, pinv, cinv in *; cbn [csize mem cin cout log pp cp set_pp poff phead pflight ppend] in *;
        try rewrite EP in *; auto.
      split; [exact Hm|]. unfold tin, tout; cbn [pp cp set_pp poff] in *. lia.
  - (* RingBuffer_write, available space *)
    destruct i_p as [Hm HF]. unfold msz in Hm. rewrite psrc_len, AW.
    destruct ((if hd then 4 else zlen m) =? 0) eqn:E1; [destruct hd; lia|].
    destruct (csize s - (tin s D R - tout s D) =? 0) eqn:E2; [destruct hd; lia|]. cbn [orb].
    rewrite take_min_eq. replace (Z.min _ _) with (if hd then 4 else zlen m) by (destruct hd; lia).
    rewrite i_in, pow2_mask by (auto; apply u32_range). rewrite pow2_mod_u32 by exact i_pow.
    eexists _, R. split; [reflexivity|].
    constructor; unfold tin, tout, stream, pinv, cinv in *; cbn [csize mem cin cout log pp cp set_pp] in *;
        try rewrite EP in *; auto.
    + split; [exact Hm|]. split; [destruct hd; unfold tin, tout; cbn [pp cp set_pp poff] in *; lia|]. split; [rewrite psrc_len; destruct hd; reflexivity|].
      split; [unfold tin; cbn [pp set_pp]; destruct hd; reflexivity|]. split; [destruct hd; lia|]. intros j Hj; lia.
  - (* one byte, or the new value of in *)
    destruct i_p as (Hm & HF & Hn & Hst & Hi & HC). unfold msz in Hm.
    assert (n = if hd then 4 else zlen m) as Hn' by (rewrite Hn; apply psrc_len).
    assert (0 <= tin s D R) as T0 by (unfold tin; rewrite EP; lia).
    assert (tin s D R + n <= tout s D + csize s) as HF' by (destruct hd; lia).
    destruct (i <? n) eqn:E.
    + destruct (znth_in_range i (psrc hd m)) as (b & Hb); [lia|]. rewrite (mload_znth _ _ _ Hb). cbn [bind].
      assert (0 <= tout s D) as TO0 by (unfold tout; lia).
      assert (n <= csize s) as Hns by lia.
      rewrite Hst, place_mod by (auto; lia).
      assert (0 <= (tin s D R + i) mod csize s < csize s) as Hp by (apply Z.mod_pos_bound; lia).
      destruct (mstore_ok (mem s) ((tin s D R + i) mod csize s) b ltac:(lia)) as (mm & HS & HL & HX & HO).
      rewrite HS. cbn [bind]. eexists _, R. split; [reflexivity|].
      assert (poff (PCopy hd m n start (i + 1)) = poff (pp s)) as PO' by (rewrite EP; destruct hd; reflexivity).
      assert (phead (PCopy hd m n start (i + 1)) = phead (pp s)) as PH' by (rewrite EP; destruct hd; reflexivity).
      rewrite <- Hst.
      constructor; unfold tin, tout, stream in *; cbn [csize mem cin cout log pp cp set_pp set_mem] in *; rewrite ?PO', ?PH'; auto.
      * lia.
      * intros k Hk. rewrite HO; [rewrite <- EP in *; auto|]. apply mod_ne; lia.
      * unfold pinv; cbn [csize mem cin cout log pp cp set_pp set_mem]. unfold tin, tout; cbn [pp cp set_pp set_mem]. rewrite PO'.
        split; [exact Hm|]. split; [exact HF|]. split; [exact Hn|]. split; [exact Hst|]. split; [lia|].
        intros j Hj. destruct (Z.eq_dec j i) as [->|NE].
        -- rewrite HX. congruence.
        -- rewrite HO; [apply HC; lia|]. apply mod_ne; lia.
    + assert (i = n) by lia. subst i. unfold pfinish. destruct hd.
      * (* header published *)
        rewrite Hn'. unfold hdr_size. change (4 =? 4) with true. cbn [assert_abort bind]. eexists _, R. split; [reflexivity|].
        assert (tin (set_pp (set_in s (u32 (cin s + 4))) (P196 false m)) D R = tin s D R + 4) as TI.
        { unfold tin; cbn [pp set_pp]. rewrite EP. cbn [poff]. lia. }
        assert (tout (set_pp (set_in s (u32 (cin s + 4))) (P196 false m)) D = tout s D) as TO by reflexivity.
        constructor; cbn [csize mem cin cout log pp cp set_pp set_in]; rewrite ?TI, ?TO; auto.
        -- rewrite i_in. apply u32_add.
        -- lia.
        -- intros k Hk. unfold stream; cbn [pp set_pp phead].
           pose proof (zlen_frames (D ++ R)) as LF. unfold tin in *; rewrite EP in *; cbn [poff] in *.
           destruct (Z_lt_dec k (used (D ++ R))).
           ++ rewrite znth_app_l by lia. rewrite i_mem by lia. unfold stream. rewrite EP; cbn [phead]. rewrite app_nil_r. reflexivity.
           ++ rewrite znth_app_r by lia. rewrite LF. specialize (HC (k - used (D ++ R)) ltac:(lia)).
              cbn [psrc] in HC. rewrite <- HC. f_equal. f_equal. lia.
        -- unfold pinv; cbn [pp set_pp log csize]. rewrite TI, TO. split; [exact Hm|]. cbn [set_in csize]. lia.
      * (* payload published: the message is in the queue *)
        rewrite Hn'. rewrite Z.eqb_refl. cbn [assert_abort bind]. exists (set_pp (set_in s (u32 (cin s + zlen m))) (PRet m MQ_SUCCESS)), (R ++ [m]). split; [reflexivity|].
        assert (tin (set_pp (set_in s (u32 (cin s + zlen m))) (PRet m MQ_SUCCESS)) D (R ++ [m]) = tin s D R + zlen m) as TI.
        { unfold tin; cbn [pp set_pp]. rewrite EP. cbn [poff]. rewrite app_assoc, used_app. cbn [used]. lia. }
        assert (tout (set_pp (set_in s (u32 (cin s + zlen m))) (PRet m MQ_SUCCESS)) D = tout s D) as TO by reflexivity.
        constructor; cbn [csize mem cin cout log pp cp set_pp set_in]; rewrite ?TI, ?TO; auto.
        -- rewrite app_assoc. apply Forall_app. split; [exact i_msz|]. constructor; [exact Hm|constructor].
        -- rewrite i_in. apply u32_add.
        -- lia.
        -- intros k Hk. unfold stream; cbn [pp set_pp phead]. rewrite app_nil_r, app_assoc, frames_app.
           pose proof (zlen_frames (D ++ R)) as LF. unfold tin in *; rewrite EP in *; cbn [poff] in *.
           unfold frame. rewrite app_assoc.
           destruct (Z_lt_dec k (used (D ++ R) + 4)).
           ++ rewrite znth_app_l by (rewrite zlen_app, le32_len; lia). rewrite i_mem by lia. unfold stream. rewrite EP; cbn [phead]. reflexivity.
           ++ rewrite znth_app_r by (rewrite zlen_app, le32_len; lia). rewrite zlen_app, le32_len, LF.
              specialize (HC (k - (used (D ++ R) + 4)) ltac:(lia)).
              cbn [psrc] in HC. rewrite <- HC. f_equal. f_equal. lia.
        -- unfold pinv; cbn [pp set_pp log csize]. split; [exact Hm|]. left; reflexivity.
        -- apply (cinv_stable s); auto.
        -- rewrite i_sent. cbn. rewrite app_nil_r, app_assoc. reflexivity.
        -- cbn in *. rewrite app_nil_r in i_acc. rewrite app_assoc, i_acc. reflexivity.
  - (* return *)
    destruct i_p as [Hm HC]. eexists _, R. split; [reflexivity|].
    assert (tin (set_pp (emit s (EPushRet m c)) PIdle) D R = tin s D R) as TI.
    { unfold tin; cbn [pp set_pp]. rewrite EP. reflexivity. }
    constructor; cbn [csize mem cin cout log pp cp set_pp emit]; rewrite ?TI; auto.
    + intros k Hk. rewrite i_mem by exact Hk. unfold stream; rewrite EP; reflexivity.
    + unfold pinv; cbn. exact I.
    + cbn [sent pflight] in *. rewrite i_sent. destruct (c =? 0); [reflexivity|].
      rewrite removelast_snoc, app_nil_r. reflexivity.
    + cbn [accepted ppend] in *. rewrite i_acc. destruct (c =? 0); [rewrite app_nil_r|]; reflexivity.
    + cbn [events_ok]. split; [|exact i_ev]. cbn [event_ok]. exact HC.
Qed.
