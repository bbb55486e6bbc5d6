From Verif Require Import MpliteProof2 MpliteProof6.
From Verif Require Import CBase SeqLib RingBuffer2Model RingBuffer2Proof FixedQueueModel MsgQueueModel SpscModel SpscSpec SpscProof
  FHandlerModel FHandlerSpec FHandlerProof FHandlerProof2 FHandlerProof3 FhTsoModel FhTsoSpec FhTsoProof.

Ltac xb := cbn [x_in x_out x_size x_mem x_cb x_ob x_tok x_min x_sem x_flag x_wfl x_dfl x_buf x_wk x_pr x_ds x_log
   xset_in xset_out xset_mem xset_cb xset_ob xset_tok xset_min xset_sem xset_flag xset_wfl xset_dfl xset_buf xset_wk xset_pr xset_ds xemit c_store
   held ftaken fflight fpend wtok cpost cbusy edp ksent kaccepted cleared] in *.
Ltac xq EX := constructor; unfold xp, xw, xshape in *; xb; rewrite ?EX in *; xb; auto; try discriminate.
Ltac xs EX := constructor; unfold xover in *; xb; rewrite ?EX in *; xb; auto; try (intro; right; auto; fail); try (solve [intuition congruence]); try lia.

(** neither the log nor the client moves and the worker neither takes nor gives up a message *)
Lemma xl_same s s' A d : xlinv s A d -> x_log s' = x_log s -> x_min s' = x_min s -> x_cb s' = x_cb s -> x_pr s' = x_pr s ->
  held (x_wk s') = held (x_wk s) -> (x_wk s' = V60 -> x_wk s = V60) -> xlinv s' A d.
Proof.
  intros [] E1 E2 E6 E3 E4 E5. constructor; rewrite ?E1, ?E2, ?E3, ?E4, ?E6; auto.
  intros mid m0 mid2 earlier H. destruct (y_clr mid m0 mid2 earlier H). auto.
Qed.
Lemma y_cl0_cons e l cm : (e <> KClearRet) ->
  (forall mid earlier, l = mid ++ KClearRet :: earlier -> zlen (kaccepted earlier) <= cm) ->
  (forall mid earlier, e :: l = mid ++ KClearRet :: earlier -> zlen (kaccepted earlier) <= cm).
Proof. intros H1 H mid earlier E. destruct mid as [|e0 mid]; [injection E as E _; congruence|]. injection E as _ E. eauto. Qed.
Lemma y_clr_cons e l fm w d0 : (forall m, e <> KPushRet m 0) -> (forall k m, e <> KCb k m) ->
  (forall mid m0 mid2 earlier, l = mid ++ KPushRet m0 0 :: mid2 ++ KClearRet :: earlier ->
     zlen (kaccepted earlier) <= fm /\ (w = V60 -> nocb mid \/ zlen (kaccepted earlier) <= d0 - 1)) ->
  (forall mid m0 mid2 earlier, e :: l = mid ++ KPushRet m0 0 :: mid2 ++ KClearRet :: earlier ->
     zlen (kaccepted earlier) <= fm /\ (w = V60 -> nocb mid \/ zlen (kaccepted earlier) <= d0 - 1)).
Proof.
  intros H1 H2 H mid m0 mid2 earlier E. destruct mid as [|e0 mid]; [injection E as E _; exfalso; exact (H1 _ E)|]. injection E as <- E.
  destruct (H mid m0 mid2 earlier E) as [A B]. split; [exact A|]. intro W. destruct (B W) as [N|N]; [left|right; exact N].
  intros k m [X|X]; [exact (H2 k m X)|exact (N k m X)].
Qed.
Lemma y_ok_cons e l : (forall k m, e <> KCb k m) ->
  (forall later k m mid m0 mid2 earlier, l = later ++ KCb k m :: mid ++ KPushRet m0 0 :: mid2 ++ KClearRet :: earlier -> zlen (kaccepted earlier) <= k \/ nocb mid) ->
  (forall later k m mid m0 mid2 earlier, e :: l = later ++ KCb k m :: mid ++ KPushRet m0 0 :: mid2 ++ KClearRet :: earlier -> zlen (kaccepted earlier) <= k \/ nocb mid).
Proof.
  intros H1 H later k m mid m0 mid2 earlier E. destruct later as [|e0 later]; [injection E as E _; exfalso; exact (H1 _ _ E)|].
  injection E as _ E. eapply H; exact E.
Qed.
Lemma in_cons_ne (x e : kev) l : e <> x -> In x (e :: l) -> In x l.
Proof. intros H [X|X]; [congruence|exact X]. Qed.
Ltac xe := try (apply y_cl0_cons; [discriminate|assumption]); try (apply y_clr_cons; [discriminate|discriminate|assumption]); try (apply y_ok_cons; [discriminate|assumption]);
   try (apply (vcb_cons (fun k m => _ <= k < _ /\ znth k _ = Some m)); [discriminate|assumption]); try (apply kord_cons; [discriminate|assumption]); try (apply vall_cons; assumption).
Ltac xd := match goal with |- _ = EDone -> _ => let X := fresh in intro X; exfalso;
   match goal with D : _ = EDone -> _ |- _ => destruct (D X) as [? _]; congruence end | _ => idtac end.
Ltac xdl := match goal with |- _ = KDestroyed \/ _ -> _ => intros [?|?]; [discriminate|auto] | |- In KDestroyed (_ :: _) -> _ => intros [?|?]; [discriminate|auto] | _ => idtac end.

Section Step.
Variable one : Z.

Lemma xwexec_inv r s A c d e : xinv one s A c d e -> exists o, xwexec one r s = Ret o /\
  forall s', o = Some s' -> exists d', xinv one s' A c d' e.
Proof.
  intros (Q & S & L). pose proof (xavail_read_eq _ _ _ _ _ _ Q) as AR. pose proof (own_out_eq _ _ _ _ _ _ Q) as OO. pose proof (worker_sees one s A c d e) as WS.
  pose proof Q as Q0. pose proof S as S0. pose proof L as L0.
  destruct Q, S. pose proof (pow2_bound _ y_pow) as PB. pose proof y_w as VW. unfold xw in VW.
  assert (0 <= cpost (x_pr s) <= 1 /\ 0 <= edp (x_ds s) <= 1) as [FP FD] by (destruct (x_pr s), (x_ds s); cbn; lia).
  assert (zlen A - c <= cpost (x_pr s)) as CP by (destruct y_shape as [[? _]|(? & ? & _)]; lia).
  unfold xwexec. destruct (x_wk s) eqn:EW.
  - (* V49 *)
    destruct (x_ob s) eqn:EO; [|eexists; split; [reflexivity|discriminate]].
    destruct (0 <? x_sem s) eqn:E; [|eexists; split; [reflexivity|discriminate]].
    eexists; split; [reflexivity|]. intros s' K. injection K as <-. exists d. split; [|split].
    + xq EW. left. split; [exact EO|]. destruct y_ob as [[_ ?]|[? _]]; [assumption|discriminate].
    + xs EW; xd. destruct y_cnt as [[K|K]|K]; try discriminate. right. lia.
    + apply (xl_same s); auto; xb; rewrite ?EW; auto; try discriminate.
  - (* V50 *)
    assert (x_ob s = [] /\ e = d) as OB by (destruct y_ob as [?|(_ & _ & Y)]; [assumption|discriminate Y]).
    eexists; split; [reflexivity|]. intros s' K. injection K as <-. exists d. destruct (x_wfl s) eqn:EWF; [discriminate (y_wfl eq_refl)|].
    rewrite orb_false_r. destruct (x_flag s) eqn:EF.
    + split; [|split]; [xq EW|xs EW; xd|apply (xl_same s); auto; xb; rewrite ?EW; auto; try discriminate].
    + split; [|split]; [xq EW|xs EW; xd|apply (xl_same s); auto; xb; rewrite ?EW; auto; try discriminate].
  - (* V51 *)
    assert (x_ob s = [] /\ e = d) as OB by (destruct y_ob as [?|(_ & _ & Y)]; [assumption|discriminate Y]).
    assert (d < c) as HD.
    { destruct y_cnt as [[K|K]|K]; unfold xover in *; rewrite ?EW in *; try discriminate. cbn [wtok] in K.
      assert (edp (x_ds s) = 1 -> 1 <= x_sem s) as D1.
      { intro X. destruct (y_dp X) as [_ [_ [Y|[[Y|Y]|Y]]]]; try discriminate; try lia. }
      destruct (x_ds s); cbn [edp] in *; lia. }
    rewrite AR. rewrite Z.mul_comm, Z.div_mul by lia. destruct (c - d =? 0) eqn:E; [lia|].
    eexists; split; [reflexivity|]. intros s' K. injection K as <-. exists d. split; [|split]; [xq EW|xs EW; xd|apply (xl_same s); auto; xb; rewrite ?EW; auto; try discriminate].
  - (* V235 *)
    assert (x_ob s = [] /\ e = d) as OB by (destruct y_ob as [?|(_ & _ & Y)]; [assumption|discriminate Y]).
    rewrite AR. destruct (one * (c - d) =? 0) eqn:E; [nia|].
    eexists; split; [reflexivity|]. intros s' K. injection K as <-. exists d.
    rewrite take_min_eq. rewrite OO, pow2_mask by (auto; apply u32_range). rewrite pow2_mod_u32 by exact y_pow.
    split; [|split]; [|xs EW; xd|apply (xl_same s); auto; xb; rewrite ?EW; auto; try discriminate].
    xq EW. split; [exact VW|]. split; [nia|]. split; [reflexivity|]. split; [nia|]. intros; lia.
  - (* VCopy *)
    assert (x_ob s = [] /\ e = d) as OB by (destruct y_ob as [?|(_ & _ & Y)]; [assumption|discriminate Y]).
    destruct VW as (HD & -> & -> & Hi & HB).
    assert (one <= x_size s) as OS by nia.
    destruct (znth_in_range d A) as (m & Hm); [lia|].
    destruct (i <? one) eqn:E.
    + rewrite place_mod by (auto; nia).
      assert (0 <= (one * d + i) mod x_size s < x_size s) as HP by (apply Z.mod_pos_bound; lia).
      destruct (znth_in_range ((one * d + i) mod x_size s) (x_mem s)) as (b & Hb); [lia|]. rewrite (mload_znth _ _ _ Hb). cbn [bind].
      destruct (mstore_ok (x_buf s) i b ltac:(lia)) as (t & HS & HL & HX & HO). rewrite HS. cbn [bind].
      eexists; split; [reflexivity|]. intros s' K. injection K as <-. exists d.
      split; [|split]; [|xs EW; xd|apply (xl_same s); auto; xb; rewrite ?EW; auto; try discriminate].
      xq EW; try lia. split; [exact HD|]. split; [reflexivity|]. split; [reflexivity|]. split; [lia|].
      intros m0 j Hm0 Hj. rewrite Hm in Hm0. injection Hm0 as <-. destruct (Z.eq_dec j i) as [->|NE].
      * rewrite HX, <- Hb. apply (WS d m i); auto; lia.
      * rewrite HO by exact NE. apply HB; auto; lia.
    + assert (i = one) by lia. subst i. rewrite Z.eqb_refl. destruct OB as [OB ->]. eexists; split; [reflexivity|]. intros s' K. injection K as <-. exists (d + 1).
      assert (zlen m + 8 = one) as Lm by (rewrite Forall_forall in y_msg; apply y_msg; eapply znth_In; eauto).
      split; [|split].
      * constructor; unfold xp, xw, xshape in *; xb; auto.
        -- right. rewrite OB, OO, u32_add. cbn [app]. split; [do 2 f_equal; lia|]. split; [lia|reflexivity].
        -- lia.
        -- intros k m0 j Hk. apply y_mem. lia.
        -- exists m. split; [lia|]. replace (d + 1 - 1) with d by lia. split; [exact Hm|].
           apply znth_ext; [rewrite wire_len; lia|]. intros j Hj. apply HB; auto; lia.
      * xs EW; xd. destruct y_cnt as [[K|K]|K]; try discriminate. right. lia.
      * destruct L. constructor; xb; rewrite ?EW in *; auto; xb.
        -- intros k m0 H. destruct (y_cb k m0 H). split; [lia|assumption].
        -- intros k H. apply y_all. lia.
        -- intros mid m0 mid2 earlier H. destruct (y_clr mid m0 mid2 earlier H). split; [assumption|discriminate].
  - (* V58 *)
    destruct VW as (m & HD & Hm & HB). rewrite HB, wire_token_ok by lia.
    eexists; split; [reflexivity|]. intros s' K. injection K as <-. exists d. destruct (d - 1 >=? x_min s) eqn:E.
    + split; [|split]; [xq EW; exists m; auto|xs EW; xd|].
      destruct L. constructor; xb; rewrite ?EW in *; auto; xb.
      intros mid m0 mid2 earlier H. destruct (y_clr mid m0 mid2 earlier H) as [K1 _]. split; [exact K1|]. intros _. right. lia.
    + split; [|split]; [xq EW|xs EW; xd|].
      destruct L. constructor; xb; rewrite ?EW in *; auto; xb.
      * intros k m0 H. destruct (y_cb k m0 H). split; [lia|assumption].
      * intros k H. apply y_all. destruct y_min as (? & ? & ?). lia.
      * intros mid m0 mid2 earlier H. destruct (y_clr mid m0 mid2 earlier H) as [K1 _]. split; [exact K1|discriminate].
  - (* V60 *)
    destruct VW as (m & HD & Hm & HB). rewrite HB, wire_token_ok, wire_msg_ok by lia.
    eexists; split; [reflexivity|]. intros s' K. injection K as <-. exists d.
    split; [|split]; [xq EW|xs EW; xd; xdl|].
    + intros [K|[K|K]]; try discriminate. apply kended_cons. auto.
    + destruct L. constructor; xb; rewrite ?EW in *; auto; xb; xe.
      * intros k m0 [H|H]; [injection H as <- <-; split; [lia|exact Hm]|]. destruct (y_cb k m0 H). split; [lia|assumption].
      * cbn [kord]. split; [|exact y_ord]. intros k' m' H. destruct (y_cb k' m' H). lia.
      * intros k H. destruct (Z.eq_dec k (d - 1)) as [->|NE]; [exists m; left; reflexivity|].
        destruct (y_all k) as (m0 & H0); [lia|]. exists m0. right. exact H0.
      * intros mid m0 mid2 earlier H. destruct mid as [|e0 mid]; [discriminate|]. injection H as <- H.
        destruct (y_clr mid m0 mid2 earlier H) as [K1 _]. split; [exact K1|discriminate].
      * intros later k m0 mid m1 mid2 earlier H. destruct later as [|e0 later].
        -- injection H as <- <- H. destruct (y_clr mid m1 mid2 earlier H) as [_ K]. destruct (K eq_refl); auto.
        -- injection H as _ H. eapply y_ok; exact H.
  - (* VCb *)
    eexists; split; [reflexivity|]. intros s' K. injection K as <-. exists d. destruct (r =? 0) eqn:E.
    + split; [|split]; [xq EW|xs EW; xd; xdl|].
      * intros [K|[K|K]]; try discriminate. apply kended_cons. auto.
      * destruct L. constructor; xb; rewrite ?EW in *; auto; xb; xe.
        intros mid m0 mid2 earlier H. apply (y_clr_cons (KCbRet r) (x_log s) (x_min s) V49 d) in H; auto; try discriminate.
        intros mid0 m1 mid3 earlier0 H0. destruct (y_clr mid0 m1 mid3 earlier0 H0). split; [assumption|discriminate].
    + split; [|split]; [xq EW|xs EW; xd; xdl|].
      * intros _. left. exists r. split; [left; reflexivity|lia].
      * destruct L. constructor; xb; rewrite ?EW in *; auto; xb; xe.
        intros mid m0 mid2 earlier H. apply (y_clr_cons (KCbRet r) (x_log s) (x_min s) V73 d) in H; auto; try discriminate.
        intros mid0 m1 mid3 earlier0 H0. destruct (y_clr mid0 m1 mid3 earlier0 H0). split; [assumption|discriminate].
  - (* V73 *)
    eexists; split; [reflexivity|]. intros s' K. injection K as <-. exists d.
    split; [|split]; [xq EW|xs EW; xd|apply (xl_same s); auto; xb; rewrite ?EW; auto; try discriminate].
  - eexists; split; [reflexivity|discriminate].
Qed.
End Step.
