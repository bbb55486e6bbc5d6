From Verif Require Import MpliteProof2 MpliteProof6.
From Verif Require Import CBase SeqLib RingBuffer2Model RingBuffer2Proof FixedQueueModel MsgQueueModel SpscModel SpscSpec SpscProof
  FHandlerModel FHandlerSpec FHandlerProof.

Lemma kended_cons e l : kended l -> kended (e :: l).
Proof. intros [(r & A & B)|A]; [left; exists r; split; [right; exact A|exact B]|right; right; exact A]. Qed.

Ltac cb := cbn [fin fout fsize fmem ftok fmin fsem fflag fbuf fwk fpr fds flog set_fin set_fout set_fmem set_ftok set_fmin
   set_fsem set_fflag set_fbuf set_fwk set_fpr set_fds femit held ftaken fflight fpend ksent kaccepted cleared] in *.
Ltac qgo EX := constructor; unfold vp, vw in *; cb; rewrite ?EX in *; cb; auto.
Ltac sgo EX := constructor; unfold fover, vtok, fpost, fdp in *; cb; rewrite ?EX in *; cb; auto; try (intro; right; auto; fail); try (solve [intuition congruence]); try lia.

(** the log does not change and the worker neither takes nor gives up a message *)
Lemma l_same s s' A d : linv s A d -> flog s' = flog s -> fmin s' = fmin s -> fpr s' = fpr s ->
  held (fwk s') = held (fwk s) -> (fwk s' = V60 -> fwk s = V60) -> linv s' A d.
Proof. intros [] E1 E2 E3 E4 E5. constructor; rewrite ?E1, ?E2, ?E3, ?E4; auto. intros mid earlier H. destruct (v_clr mid earlier H). auto. Qed.
(** an event that is neither a callback nor a clear *)
Lemma v_clr_cons e l fm w d0 : (e <> KClearRet) -> (forall k m, e <> KCb k m) ->
  (forall mid earlier, l = mid ++ KClearRet :: earlier ->
     zlen (kaccepted earlier) <= fm /\ (w = V60 -> nocb mid \/ zlen (kaccepted earlier) <= d0 - 1)) ->
  (forall mid earlier, e :: l = mid ++ KClearRet :: earlier ->
     zlen (kaccepted earlier) <= fm /\ (w = V60 -> nocb mid \/ zlen (kaccepted earlier) <= d0 - 1)).
Proof.
  intros H1 H2 H mid earlier E. destruct mid as [|e0 mid]; [injection E as E _; congruence|]. injection E as <- E.
  destruct (H mid earlier E) as [A B]. split; [exact A|]. intro W. destruct (B W) as [N|N]; [left|right; exact N].
  intros k m [X|X]; [exact (H2 k m X)|exact (N k m X)].
Qed.
Lemma v_ok_cons e l : (forall k m, e <> KCb k m) ->
  (forall later k m mid earlier, l = later ++ KCb k m :: mid ++ KClearRet :: earlier -> zlen (kaccepted earlier) <= k \/ nocb mid) ->
  (forall later k m mid earlier, e :: l = later ++ KCb k m :: mid ++ KClearRet :: earlier -> zlen (kaccepted earlier) <= k \/ nocb mid).
Proof.
  intros H1 H later k m mid earlier E. destruct later as [|e0 later]; [injection E as E _; exfalso; exact (H1 _ _ E)|].
  injection E as _ E. eapply H; exact E.
Qed.
Lemma vcb_cons (P : Z -> list Z -> Prop) e l : (forall k m, e <> KCb k m) -> (forall k m, In (KCb k m) l -> P k m) ->
  (forall k m, In (KCb k m) (e :: l) -> P k m).
Proof. intros H1 H k m [X|X]; [exfalso; exact (H1 _ _ X)|auto]. Qed.
Lemma kord_cons e l : (forall k m, e <> KCb k m) -> kord l -> kord (e :: l).
Proof. intros H K. destruct e; cbn; auto. exfalso; exact (H _ _ eq_refl). Qed.
Lemma vall_cons e l lo hi : (forall k, lo <= k < hi -> exists m, In (KCb k m) l) -> (forall k, lo <= k < hi -> exists m, In (KCb k m) (e :: l)).
Proof. intros H k Hk. destruct (H k Hk) as (m & X). exists m. right; exact X. Qed.

Ltac ev := try (apply v_clr_cons; [discriminate|discriminate|assumption]); try (apply v_ok_cons; [discriminate|assumption]);
   try (apply (vcb_cons (fun k m => _ <= k < _ /\ znth k _ = Some m)); [discriminate|assumption]); try (apply kord_cons; [discriminate|assumption]); try (apply vall_cons; assumption).

Lemma znth_snoc_old {X} (l : list X) k m x : znth k l = Some m -> znth k (l ++ [x]) = Some m.
Proof. intro H. pose proof (znth_Some_range _ _ _ H). rewrite znth_app_l by lia. exact H. Qed.

Section Step.
Variable one : Z.

Lemma fwexec_inv r s A d : finv one s A d -> exists o, fwexec one r s = Ret o /\
  forall s', o = Some s' -> exists d', finv one s' A d'.
Proof.
  intros (Q & S & L). pose proof (favail_read_eq _ _ _ _ Q) as AR. pose proof Q as Q0. pose proof S as S0. pose proof L as L0.
  destruct Q, S. pose proof (pow2_bound _ v_pow) as PB. pose proof v_w as VW. unfold vw in VW.
  assert (0 <= fpost s <= 1 /\ 0 <= fdp s <= 1) as [FP FD] by (unfold fpost, fdp; destruct (fpr s), (fds s); lia).
  unfold fwexec. destruct (fwk s) eqn:EW.
  - (* V49 *)
    destruct (0 <? fsem s) eqn:E; [|eexists; split; [reflexivity|discriminate]].
    eexists; split; [reflexivity|]. intros s' K. injection K as <-. exists d. split; [|split].
    + qgo EW.
    + sgo EW. destruct v_cnt as [[K|K]|K]; try discriminate. right. lia.
    + apply (l_same s); auto; cb; rewrite ?EW; auto; try discriminate.
  - (* V50 *)
    eexists; split; [reflexivity|]. intros s' K. injection K as <-. exists d. destruct (fflag s) eqn:EF.
    + split; [|split]; [qgo EW|sgo EW|apply (l_same s); auto; cb; rewrite ?EW; auto; try discriminate].
    + split; [|split]; [qgo EW|sgo EW|apply (l_same s); auto; cb; rewrite ?EW; auto; try discriminate].
  - (* V51 *)
    assert (d < zlen A) as HD.
    { destruct v_cnt as [[K|K]|K]; unfold fover in *; rewrite ?EW in *; try discriminate. unfold vtok in K. rewrite EW in K.
      assert (fdp s = 1 -> 1 <= fsem s) as D1.
      { intro X. destruct (v_dp X) as [_ [Y|[[Y|Y]|Y]]]; try discriminate; try lia. }
      unfold fdp in *. destruct (fds s); lia. }
    rewrite AR. rewrite Z.mul_comm, Z.div_mul by lia. destruct (zlen A - d =? 0) eqn:E; [lia|].
    eexists; split; [reflexivity|]. intros s' K. injection K as <-. exists d. split; [|split]; [qgo EW|sgo EW|apply (l_same s); auto; cb; rewrite ?EW; auto; try discriminate].
  - (* V235 *)
    rewrite AR. destruct (one * (zlen A - d) =? 0) eqn:E; [nia|].
    eexists; split; [reflexivity|]. intros s' K. injection K as <-. exists d.
    rewrite take_min_eq. rewrite v_out, pow2_mask by (auto; apply u32_range). rewrite pow2_mod_u32 by exact v_pow.
    split; [|split]; [|sgo EW|apply (l_same s); auto; cb; rewrite ?EW; auto; try discriminate].
    qgo EW. split; [exact VW|]. split; [nia|]. split; [reflexivity|]. split; [nia|]. intros; lia.
  - (* VCopy *)
    destruct VW as (HD & -> & -> & Hi & HB).
    assert (one <= fsize s) as OS by nia.
    destruct (znth_in_range d A) as (m & Hm); [lia|].
    destruct (i <? one) eqn:E.
    + rewrite place_mod by (auto; nia).
      assert (0 <= (one * d + i) mod fsize s < fsize s) as HP by (apply Z.mod_pos_bound; lia).
      destruct (znth_in_range ((one * d + i) mod fsize s) (fmem s)) as (b & Hb); [lia|]. rewrite (mload_znth _ _ _ Hb). cbn [bind].
      destruct (mstore_ok (fbuf s) i b ltac:(lia)) as (t & HS & HL & HX & HO). rewrite HS. cbn [bind].
      eexists; split; [reflexivity|]. intros s' K. injection K as <-. exists d.
      split; [|split]; [|sgo EW|apply (l_same s); auto; cb; rewrite ?EW; auto; try discriminate].
      qgo EW; try lia. split; [exact HD|]. split; [reflexivity|]. split; [reflexivity|]. split; [lia|].
      intros m0 j Hm0 Hj. rewrite Hm in Hm0. injection Hm0 as <-. destruct (Z.eq_dec j i) as [->|NE].
      * rewrite HX, <- Hb. apply v_mem; auto; lia.
      * rewrite HO by exact NE. apply HB; auto; lia.
    + assert (i = one) by lia. subst i. rewrite Z.eqb_refl. eexists; split; [reflexivity|]. intros s' K. injection K as <-. exists (d + 1).
      assert (zlen m + 8 = one) as Lm by (rewrite Forall_forall in v_msg; apply v_msg; eapply znth_In; eauto).
      split; [|split].
      * constructor; unfold vp, vw in *; cb; auto.
        -- rewrite v_out, u32_add. f_equal. lia.
        -- lia.
        -- nia.
        -- intros k m0 j Hk. apply v_mem. lia.
        -- destruct (fpr s); auto; try (intuition nia).
        -- exists m. split; [lia|]. replace (d + 1 - 1) with d by lia. split; [exact Hm|].
           apply znth_ext; [rewrite wire_len; lia|]. intros j Hj. apply HB; auto; lia.
      * sgo EW. destruct v_cnt as [[K|K]|K]; try discriminate. right. lia.
      * destruct L. constructor; cb; rewrite ?EW in *; auto; cb.
        -- intros k m0 H. destruct (v_cb k m0 H). split; [lia|assumption].
        -- intros k H. apply v_all. lia.
        -- intros mid earlier H. destruct (v_clr mid earlier H). split; [assumption|discriminate].
  - (* V58 *)
    destruct VW as (m & HD & Hm & HB). rewrite HB, wire_token_ok by lia.
    eexists; split; [reflexivity|]. intros s' K. injection K as <-. exists d. destruct (d - 1 >=? fmin s) eqn:E.
    + split; [|split]; [qgo EW; exists m; auto|sgo EW|].
      destruct L. constructor; cb; rewrite ?EW in *; auto; cb.
      intros mid earlier H. destruct (v_clr mid earlier H) as [K1 _]. split; [exact K1|]. intros _. right. lia.
    + split; [|split]; [qgo EW|sgo EW|].
      destruct L. constructor; cb; rewrite ?EW in *; auto; cb.
      * intros k m0 H. destruct (v_cb k m0 H). split; [lia|assumption].
      * intros k H. apply v_all. destruct v_min as (? & ? & ?). lia.
      * intros mid earlier H. destruct (v_clr mid earlier H) as [K1 _]. split; [exact K1|discriminate].
  - (* V60 *)
    destruct VW as (m & HD & Hm & HB). rewrite HB, wire_token_ok, wire_msg_ok by lia.
    eexists; split; [reflexivity|]. intros s' K. injection K as <-. exists d.
    split; [|split]; [qgo EW|sgo EW|].
    + intros [K|[K|K]]; try discriminate. apply kended_cons. auto.
    + destruct L. constructor; cb; rewrite ?EW in *; auto; cb.
      * intros k m0 [H|H]; [injection H as <- <-; split; [lia|exact Hm]|]. destruct (v_cb k m0 H). split; [lia|assumption].
      * cbn [kord]. split; [|exact v_ord]. intros k' m' H. destruct (v_cb k' m' H). lia.
      * intros k H. destruct (Z.eq_dec k (d - 1)) as [->|NE]; [exists m; left; reflexivity|].
        destruct (v_all k) as (m0 & H0); [lia|]. exists m0. right. exact H0.
      * intros mid earlier H. destruct mid as [|e0 mid]; [discriminate|]. injection H as <- H.
        destruct (v_clr mid earlier H) as [K1 _]. split; [exact K1|discriminate].
      * intros later k m0 mid earlier H. destruct later as [|e0 later].
        -- injection H as <- <- H. destruct (v_clr mid earlier H) as [_ K]. destruct (K eq_refl); auto.
        -- injection H as _ H. eapply v_ok; exact H.
  - (* VCb *)
    eexists; split; [reflexivity|]. intros s' K. injection K as <-. exists d. destruct (r =? 0) eqn:E.
    + split; [|split]; [qgo EW|sgo EW|].
      * intros [K|[K|K]]; try discriminate. apply kended_cons. auto.
      * destruct L. constructor; cb; rewrite ?EW in *; auto; cb; ev.
        intros mid earlier H. apply (v_clr_cons (KCbRet r) (flog s) (fmin s) V49 d) in H; auto; try discriminate.
        intros mid0 earlier0 H0. destruct (v_clr mid0 earlier0 H0). split; [assumption|discriminate].
    + split; [|split]; [qgo EW|sgo EW|].
      * intros _. left. exists r. split; [left; reflexivity|lia].
      * destruct L. constructor; cb; rewrite ?EW in *; auto; cb; ev.
        intros mid earlier H. apply (v_clr_cons (KCbRet r) (flog s) (fmin s) V73 d) in H; auto; try discriminate.
        intros mid0 earlier0 H0. destruct (v_clr mid0 earlier0 H0). split; [assumption|discriminate].
  - (* V73 *)
    eexists; split; [reflexivity|]. intros s' K. injection K as <-. exists d.
    split; [|split]; [qgo EW|sgo EW|apply (l_same s); auto; cb; rewrite ?EW; auto; try discriminate].
  - eexists; split; [reflexivity|discriminate].
Qed.
End Step.
