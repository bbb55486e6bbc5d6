From Verif Require Import MpliteProof2 MpliteProof6.
From Verif Require Import CBase SeqLib RingBuffer2Model RingBuffer2Proof FixedQueueModel MsgQueueModel SpscModel SpscSpec SpscProof
  FHandlerModel FHandlerSpec FHandlerProof FHandlerProof2 FHandlerProof3 FhTsoModel FhTsoSpec FhTsoProof FhTsoProof2.

Lemma xl_pr s s' A d : xlinv s A d -> x_log s' = x_log s -> x_min s' = x_min s -> x_cb s' = x_cb s -> x_wk s' = x_wk s ->
  fflight (x_pr s') = fflight (x_pr s) -> fpend (x_pr s') = fpend (x_pr s) ->
  x_pr s <> F153 -> x_pr s <> F156 -> x_pr s' <> F153 -> x_pr s' <> F156 -> xlinv s' A d.
Proof.
  intros [] E1 E2 E6 E3 E4 E5 N1 N2 N3 N4. constructor; rewrite ?E1, ?E2, ?E3, ?E4, ?E5, ?E6; auto.
  destruct y_min as (M1 & M2 & M0 & M3). split; [exact M1|]. split; [exact M2|]. split; [exact M0|].
  destruct (x_pr s); try congruence; destruct (x_pr s'); try congruence; exact M3.
Qed.
(** the client stores a byte or in *)
Lemma xl_store s s' A d e : xlinv s A d -> (forall v, e <> CMin v) -> x_log s' = x_log s -> x_min s' = x_min s -> x_cb s' = x_cb s ++ [e] -> x_wk s' = x_wk s ->
  fflight (x_pr s') = fflight (x_pr s) -> fpend (x_pr s') = fpend (x_pr s) ->
  x_pr s <> F153 -> x_pr s <> F156 -> x_pr s' <> F153 -> x_pr s' <> F156 -> xlinv s' A d.
Proof.
  intros [] NE E1 E2 E6 E3 E4 E5 N1 N2 N3 N4.
  assert (c_min (x_cb s ++ [e]) (x_min s) = c_min (x_cb s) (x_min s)) as CM by (rewrite c_min_snoc; destruct e; congruence).
  constructor; rewrite ?E1, ?E2, ?E3, ?E4, ?E5, ?E6, ?CM; auto.
  - destruct y_min as (M1 & M2 & M0 & M3). split; [exact M1|]. split; [exact M2|]. split.
    + intros v K. apply in_app_iff in K. destruct K as [K|[K|[]]]; [auto|congruence].
    + destruct (x_pr s); try congruence; destruct (x_pr s'); try congruence; exact M3.
  - apply min_sorted_snoc; [assumption|]. intros y K. congruence.
Qed.

Section Step.
Variable one : Z.

Lemma xw_snoc s A c d m : xw one s A c d -> 0 <= d -> c <= zlen A -> xw one s (A ++ [m]) c d.
Proof.
  unfold xw. intros H Hd Hc. destruct (x_wk s); auto.
  - destruct H as (H1 & H2 & H3 & H4 & H5). split; [lia|]. split; [auto|]. split; [auto|]. split; [auto|].
    intros m0 j E. rewrite znth_app_l in E by lia. apply H5; auto.
  - destruct H as (m0 & H1 & H2 & H3). exists m0. split; [auto|]. split; [apply znth_snoc_old; auto|auto].
  - destruct H as (m0 & H1 & H2 & H3). exists m0. split; [auto|]. split; [apply znth_snoc_old; auto|auto].
Qed.
Lemma not_in_snoc_in (b : list cst) e : (forall y, ~ In (CIn y) b) -> (forall y, e <> CIn y) -> forall y, ~ In (CIn y) (b ++ [e]).
Proof. intros H K y X. apply in_app_iff in X. destruct X as [X|[X|[]]]; [exact (H y X)|exact (K y X)]. Qed.

Lemma xpexec_inv s A c d e : xinv one s A c d e -> zlen (kaccepted (x_log s)) + 2 < two64 ->
  exists o, xpexec one s = Ret o /\ forall s', o = Some s' -> exists A' c', xinv one s' A' c' d e.
Proof.
  intros (Q & S & L) HT. pose proof (xavail_write_eq _ _ _ _ _ _ Q) as AW. pose proof (own_in_eq _ _ _ _ _ _ Q) as OI. pose proof Q as Q0. pose proof S as S0. pose proof L as L0.
  destruct Q, S. pose proof (pow2_bound _ y_pow) as PB. pose proof y_p as VP. unfold xp in VP.
  assert (e <= d) as ED by (destruct y_ob; lia).
  assert (cpost (x_pr s) = 0 -> c = zlen A /\ forall y, ~ In (CIn y) (x_cb s)) as SH by (intro X; destruct y_shape as [?|(_ & Y & _)]; [assumption|congruence]).
  unfold xpexec. destruct (x_pr s) eqn:EP.
  - eexists; split; [reflexivity|discriminate].
  - (* F111 *)
    eexists; split; [reflexivity|]. intros s' K. injection K as <-. exists A, c. destruct (x_flag s) eqn:EF.
    + split; [|split]; [xq EP|xs EP|apply (xl_pr s); auto; xb; rewrite ?EP; auto; try discriminate].
    + split; [|split]; [xq EP|xs EP|apply (xl_pr s); auto; xb; rewrite ?EP; auto; try discriminate].
  - (* F117 *)
    eexists; split; [reflexivity|]. intros s' K. injection K as <-. exists A, c.
    split; [|split]; [|xs EP|apply (xl_pr s); auto; xb; rewrite ?EP; auto; try discriminate].
    xq EP. split; [exact VP|]. rewrite y_tok, Z.sub_0_r. reflexivity.
  - (* F39 *)
    destruct VP as [V1 V2]. rewrite AW.
    eexists; split; [reflexivity|]. intros s' K. injection K as <-. exists A, c. destruct (_ =? 0) eqn:E.
    + split; [|split]; [xq EP|xs EP|apply (xl_pr s); auto; xb; rewrite ?EP; auto; try discriminate].
    + split; [|split]; [|xs EP|apply (xl_pr s); auto; xb; rewrite ?EP; auto; try discriminate].
      xq EP. split; [exact V1|]. split; [exact V2|].
      assert (1 <= (x_size s - one * (zlen A - e)) / one) as HD.
      { assert (0 <= (x_size s - one * (zlen A - e)) / one) by (apply Z.div_pos; lia). lia. }
      pose proof (Z.mul_div_le (x_size s - one * (zlen A - e)) one). nia.
  - (* F196 *)
    destruct VP as (V1 & V2 & V3). rewrite AW. destruct (_ =? 0) eqn:E; [nia|].
    eexists; split; [reflexivity|]. intros s' K. injection K as <-. exists A, c.
    rewrite take_min_eq. rewrite OI, pow2_mask by (auto; apply u32_range). rewrite pow2_mod_u32 by exact y_pow.
    split; [|split]; [|xs EP|apply (xl_pr s); auto; xb; rewrite ?EP; auto; try discriminate].
    xq EP. split; [exact V1|]. split; [exact V2|]. split; [exact V3|]. split; [nia|]. split; [reflexivity|]. split; [nia|]. intros; lia.
  - (* FCopy *)
    destruct VP as (V1 & V2 & V3 & -> & -> & Hi & HC). destruct (SH eq_refl) as [-> NI].
    assert (one <= x_size s) as OS by nia.
    destruct (i <? one) eqn:E.
    + destruct (znth_in_range i w) as (b & Hb); [rewrite V2, wire_len; lia|]. rewrite (mload_znth _ _ _ Hb). cbn [bind].
      rewrite place_mod by (auto; nia).
      eexists; split; [reflexivity|]. intros s' K. injection K as <-. exists A, (zlen A).
      split; [|split]; [|xs EP|eapply (xl_store s); eauto; xb; rewrite ?EP; auto; try discriminate].
      xq EP.
      * left. split; [reflexivity|]. apply not_in_snoc_in; [exact NI|discriminate].
      * intros p b0 K. apply in_app_iff in K. destruct K as [K|[K|[]]]; [eapply y_loc; exact K|]. injection K as <- <-.
        split; [exact V3|]. exists i. split; [lia|reflexivity].
      * intros k m0 j Hk Hm0 Hj. pose proof (znth_Some_range _ _ _ Hm0). rewrite dget_snoc.
        assert ((one * k + j) mod x_size s <> (one * zlen A + i) mod x_size s) as NE by (apply mod_ne; nia).
        destruct (_ =? _) eqn:EE; [lia|]. apply y_mem; auto.
      * split; [exact V1|]. split; [exact V2|]. split; [exact V3|]. split; [reflexivity|]. split; [reflexivity|]. split; [lia|].
        intros j Hj. rewrite dget_snoc. destruct (Z.eq_dec j i) as [->|NE]; [rewrite Z.eqb_refl; congruence|].
        assert ((one * zlen A + j) mod x_size s <> (one * zlen A + i) mod x_size s) as NE2 by (apply mod_ne; lia).
        destruct (_ =? _) eqn:EE; [lia|]. apply HC; lia.
    + assert (i = one) by lia. subst i. rewrite Z.eqb_refl. eexists; split; [reflexivity|]. intros s' K. injection K as <-. exists (A ++ [m]), (zlen A).
      assert (A = kaccepted (x_log s)) as HA.
      { destruct L. rewrite EP in y_acc. cbn in y_acc. rewrite app_nil_r in y_acc. exact y_acc. }
      split; [|split].
      * constructor; unfold xp, xshape in *; xb; rewrite ?zlen_snoc; auto; try discriminate.
        -- apply Forall_app. split; [exact y_msg|]. constructor; [exact V1|constructor].
        -- right. split; [lia|]. split; [reflexivity|]. exists (x_cb s). split; [|exact NI]. rewrite OI, u32_add. do 4 f_equal. lia.
        -- intros p b0 K. apply in_app_iff in K. destruct K as [K|[K|[]]]; [eapply y_loc; exact K|discriminate].
        -- lia.
        -- lia.
        -- rewrite HA. lia.
        -- intros k m0 j Hk Hm0 Hj. rewrite dget_snoc_in. rewrite znth_app in Hm0. destruct (k <? zlen A) eqn:EK; [apply y_mem; auto|].
           assert (k = zlen A) by (apply znth_Some_range in Hm0; change (zlen [m]) with 1 in Hm0; lia). subst k.
           rewrite Z.sub_diag in Hm0. injection Hm0 as <-. rewrite HC by lia. rewrite V2. reflexivity.
        -- pose proof (xw_snoc s A (zlen A) d m y_w ltac:(lia) ltac:(lia)) as X. unfold xw in *. xb. exact X.
      * xs EP. destruct y_cnt as [K|K]; [left; exact K|right]. rewrite zlen_snoc. lia.
      * destruct L. 
        assert (c_min (x_cb s ++ [CIn (u32 (xown_in s + one))]) (x_min s) = c_min (x_cb s) (x_min s)) as CM by (rewrite c_min_snoc; reflexivity).
        constructor; xb; rewrite ?EP in *; xb; rewrite ?CM; auto; rewrite ?app_nil_r in *.
        -- exact y_sent.
        -- congruence.
        -- destruct y_min as (M1 & M2 & M0 & M3). split; [exact M1|]. split; [exact M2|]. split; [|exact M3].
           intros v K. apply in_app_iff in K. destruct K as [K|[K|[]]]; [auto|discriminate].
        -- intros k m0 H. destruct (y_cb k m0 H). split; [assumption|]. apply znth_snoc_old; assumption.
        -- apply min_sorted_snoc; [assumption|discriminate].
  - (* F126 *)
    eexists; split; [reflexivity|]. intros s' K. injection K as <-. exists A, c.
    split; [|split]; [|xs EP|apply (xl_pr s); auto; xb; rewrite ?EP; auto; try discriminate].
    xq EP. rewrite y_tok. xb. unfold u64. rewrite Z.mod_small; [lia|].
    destruct L0. rewrite EP in y_acc. xb. rewrite y_acc, zlen_snoc in *. pose proof (zlen_nonneg (kaccepted (x_log s))). unfold two64 in *. lia.
  - (* F127 *)
    destruct (x_cb s) as [|ce cb] eqn:EC; [|eexists; split; [reflexivity|discriminate]].
    assert (c = zlen A) as -> by (destruct y_shape as [[? _]|(_ & _ & pre & X & _)]; [assumption|rewrite EC in X; destruct pre; discriminate]).
    eexists; split; [reflexivity|]. intros s' K. injection K as <-. exists A, (zlen A).
    split; [|split]; [xq EP|xs EP|apply (xl_pr s); auto; xb; rewrite ?EP; auto; try discriminate].
    + left. split; [reflexivity|]. rewrite EC. intros y [].
    + rewrite EC. intros p b [].
    + rewrite EC. intros p b [].
    + rewrite EC. exact y_mem.
    + destruct y_cnt as [K|K]; [left; exact K|right; lia].
    + intro X. destruct (y_dp X) as (Y0 & Y1 & [Y2|[Y2|Y2]]); split; auto; split; auto. right; right; lia.
  - (* FRet *)
    eexists; split; [reflexivity|]. intros s' K. injection K as <-. exists A, c.
    split; [|split]; [xq EP|xs EP; xdl|].
    + intro K. apply kended_cons. auto.
    + destruct L. constructor; xb; rewrite ?EP in *; xb; auto; xe.
      * rewrite y_sent. destruct (code =? 0); [reflexivity|]. rewrite removelast_snoc', app_nil_r. reflexivity.
      * rewrite y_acc at 1. destruct (code =? 0); [|reflexivity]. rewrite app_nil_r. reflexivity.
      * destruct y_min as (M1 & M2 & M0 & M3). split; [|auto]. split; [lia|]. destruct (code =? 0); rewrite ?zlen_snoc; lia.
      * intros mid m0 mid2 earlier H. destruct mid as [|e0 mid].
        -- injection H as <- E0 H. subst code. pose proof (y_cl0 mid2 earlier H) as X. rewrite (VP eq_refl) in X. cbn in X. split; [exact X|].
           intros _. left. intros k0 m1 [].
        -- injection H as <- H. destruct (y_clr mid m0 mid2 earlier H) as [K1 K2]. split; [exact K1|]. intro W. destruct (K2 W) as [N|N]; [left|right; exact N].
           intros k m1 [X|X]; [discriminate|exact (N k m1 X)].
  - (* F153 *)
    destruct (SH eq_refl) as [-> NI].
    eexists; split; [reflexivity|]. intros s' K. injection K as <-. exists A, (zlen A).
    split; [|split]; [xq EP|xs EP|].
    + left. split; [reflexivity|]. apply not_in_snoc_in; [exact NI|discriminate].
    + intros p b0 K. apply in_app_iff in K. destruct K as [K|[K|[]]]; [eapply y_byte; exact K|discriminate].
    + intros p b0 K. apply in_app_iff in K. destruct K as [K|[K|[]]]; [eapply y_loc; exact K|discriminate].
    + intros k m0 j Hk Hm0 Hj. rewrite dget_snoc_min. apply y_mem; auto.
    + destruct L.
      assert (c_min (x_cb s ++ [CMin (x_tok s)]) (x_min s) = zlen A) as CM by (rewrite c_min_snoc, y_tok; cbn; lia).
      constructor; xb; rewrite ?EP in *; xb; rewrite ?CM; auto.
      * destruct y_min as (M1 & M2 & M0 & M3). split; [lia|]. split; [lia|]. split; [|auto].
        intros v K. apply in_app_iff in K. destruct K as [K|[K|[]]]; [auto|]. injection K as <-. lia.
      * apply min_sorted_snoc; [assumption|]. intros y K. injection K as <-. lia.
      * intros mid earlier H. pose proof (y_cl0 mid earlier H). lia.
  - (* F156 *)
    eexists; split; [reflexivity|]. intros s' K. injection K as <-. exists A, c.
    split; [|split]; [xq EP|xs EP; xdl|].
    + intro K. apply kended_cons. auto.
    + destruct L. rewrite EP in *. xb. constructor; xb; auto; xe.
      * destruct y_min as (M1 & M2 & M0 & M3 & M4). split; [exact M1|]. split; [exact M2|]. split; [exact M0|]. congruence.
      * intros mid earlier H. destruct mid as [|e0 mid].
        -- injection H as <-. destruct y_min as (M1 & M2 & M0 & M3 & M4). rewrite app_nil_r in y_acc. rewrite <- y_acc. lia.
        -- injection H as <- H. eapply y_cl0; exact H.
Qed.

Lemma xdexec_inv s s' A c d e : xinv one s A c d e -> xdexec s = Some s' -> xinv one s' A c d e.
Proof.
  intros (Q & S & L) H. unfold xdexec in H. destruct (x_ds s) eqn:ED; try discriminate.
  - injection H as <-. split; [|split].
    + destruct Q. xq ED.
    + destruct S. xs ED; xdl.
    + apply (xl_same s); auto.
  - destruct (x_dfl s) eqn:EF; [discriminate|]. injection H as <-. split; [|split].
    + destruct Q. xq ED.
    + destruct S. xs ED.
      * destruct y_cnt as [K|K]; [left; exact K|right; lia].
      * intros _. destruct (y_fl eq_refl); [|congruence]. split; [auto|]. split; [auto|]. right; right. lia.
    + apply (xl_same s); auto.
  - destruct (x_wk s) eqn:EW; try discriminate. destruct (x_ob s) eqn:EO; [|discriminate]. destruct (x_wfl s) eqn:EF; [discriminate|].
    injection H as <-. split; [|split].
    + destruct Q. xq ED.
    + destruct S. xs ED.
      * intro K. apply kended_cons. auto.
      * intros _. right. apply y_des. discriminate.
    + destruct L. constructor; xb; auto; xe.
Qed.
End Step.
