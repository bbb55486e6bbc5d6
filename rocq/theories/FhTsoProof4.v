From Verif Require Import MpliteProof2 MpliteProof6.
From Verif Require Import CBase SeqLib RingBuffer2Model RingBuffer2Proof FixedQueueModel MsgQueueModel SpscModel SpscSpec SpscProof
  FHandlerModel FHandlerSpec FHandlerProof FHandlerProof2 FHandlerProof3 FhTsoModel FhTsoSpec FhTsoProof FhTsoProof2 FhTsoProof3.

Section Step.
Variable one : Z.

(** a pending byte lies in the data area *)
Lemma pending_in_range s A c d e p b : xqinv one s A c d e -> In (CByte p b) (x_cb s) -> 0 <= p < zlen (x_mem s).
Proof.
  intros [] H. destruct (y_loc p b H) as (_ & j & Hj & ->). pose proof (pow2_bound _ y_pow).
  assert (0 <= (one * c + j) mod x_size s < x_size s) by (apply Z.mod_pos_bound; lia). lia.
Qed.
Lemma xcommit_ok s A c d e ev b : xqinv one s A c d e -> x_cb s = ev :: b -> exists s', xcommit (xset_cb s b) ev = Ret s'.
Proof.
  intros Q E. destruct ev as [p v|x|x]; cbn [xcommit]; eauto. xb.
  destruct (mstore_ok (x_mem s) p v) as (t & -> & _); [|cbn [bind]; eauto]. eapply pending_in_range; [exact Q|]. rewrite E. left; reflexivity.
Qed.
Lemma xl_commit_other s s' A d ev b : xlinv s A d -> x_cb s = ev :: b -> (forall v, ev <> CMin v) -> x_log s' = x_log s -> x_min s' = x_min s -> x_cb s' = b -> x_wk s' = x_wk s ->
  x_pr s' = x_pr s -> xlinv s' A d.
Proof.
  intros [] EB NE E1 E2 E3 E4 E5.
  assert (c_min (x_cb s) (x_min s) = c_min b (x_min s)) as CM by (rewrite EB; destruct ev; cbn; congruence).
  constructor; rewrite ?E1, ?E2, ?E3, ?E4, ?E5; rewrite ?CM in *; auto.
  - destruct y_min as (M1 & M2 & M0 & M3). split; [exact M1|]. split; [exact M2|]. split; [|exact M3]. intros v K. apply M0. rewrite EB. right; exact K.
  - rewrite EB in y_sort. destruct ev; cbn in y_sort; auto. exfalso; eapply NE; reflexivity.
Qed.
Lemma xcommit_inv s A c d e ev b s' : xinv one s A c d e -> x_cb s = ev :: b -> xcommit (xset_cb s b) ev = Ret s' -> exists c', xinv one s' A c' d e.
Proof.
  intros (Q & S & L) E H. destruct ev as [p v|x|x]; cbn [xcommit] in H.
  - (* a byte *)
    xb. destruct (mstore_ok (x_mem s) p v) as (t & HS & HL & HX & HO); [eapply pending_in_range; [exact Q|rewrite E; left; reflexivity]|].
    rewrite HS in H. cbn [bind] in H. injection H as <-. exists c.
    assert (forall i, dget b i (znth i t) = dget (x_cb s) i (znth i (x_mem s))) as DG.
    { intro i. rewrite E. cbn [dget]. destruct (p =? i) eqn:EP; [assert (i = p) by lia; subst i; rewrite HX; reflexivity|]. rewrite HO by lia. reflexivity. }
    split; [|split].
    + destruct Q. constructor; unfold xp, xw, xshape in *; xb; auto.
      * lia.
      * destruct y_shape as [[? N]|(? & ? & pre & X & N)]; [left|right].
        -- split; [assumption|]. intros y K. apply (N y). rewrite E. right; exact K.
        -- split; [assumption|]. split; [assumption|]. rewrite E in X. destruct pre as [|e0 pre]; [discriminate X|]. cbn in X. injection X as X0 X. subst e0.
           exists pre. split; [exact X|]. intros y K. apply (N y). right; exact K.
      * intros m K. specialize (y_cb0 m K). congruence.
      * intros p0 b0 K. apply (y_byte p0 b0). rewrite E. right; exact K.
      * intros p0 b0 K. apply (y_loc p0 b0). rewrite E. right; exact K.
      * intros k m j Hk Hm Hj. rewrite DG. apply y_mem; auto.
      * destruct (x_pr s); auto; [|intro K; specialize (y_p K); congruence].
        destruct y_p as (V1 & V2 & V3 & V4 & V5 & V6 & V7). repeat (split; [assumption|]). intros j Hj. rewrite DG. apply V7; exact Hj.
    + destruct S. constructor; unfold xover in *; xb; auto.
    + eapply (xl_commit_other s); eauto. discriminate.
  - (* in *)
    injection H as <-. exists (zlen A).
    assert (b = [] /\ c = zlen A - 1 /\ x = u32 (one * zlen A) /\ cpost (x_pr s) = 1) as (-> & EC & -> & CP).
    { destruct Q. destruct y_shape as [[_ N]|(EC & CP & pre & X & N)]; [exfalso; apply (N x); rewrite E; left; reflexivity|].
      rewrite E in X. destruct pre as [|e0 pre]; [injection X as -> ->; auto|]. cbn in X. injection X as <- X. exfalso. apply (N x). left; reflexivity. }
    split; [|split].
    + destruct Q. constructor; unfold xp, xw, xshape in *; xb; auto; try lia.
      * intros p0 b0 [].
      * intros k m j Hk Hm Hj. rewrite <- (y_mem k m j) by auto. rewrite E. reflexivity.
      * destruct (x_pr s); auto; discriminate CP.
      * destruct (x_wk s); auto; [lia|]. destruct y_w as (? & ?). split; [lia|assumption].
    + destruct S. constructor; unfold xover in *; xb; auto.
    + eapply (xl_commit_other s); eauto. discriminate.
  - (* min_valid_token *)
    injection H as <-. exists c. split; [|split].
    + destruct Q. constructor; unfold xp, xw, xshape in *; xb; auto.
      * destruct y_shape as [[? N]|(? & ? & pre & X & N)]; [left|right].
        -- split; [assumption|]. intros y K. apply (N y). rewrite E. right; exact K.
        -- split; [assumption|]. split; [assumption|]. rewrite E in X. destruct pre as [|e0 pre]; [discriminate X|]. cbn in X. injection X as X0 X. subst e0.
           exists pre. split; [exact X|]. intros y K. apply (N y). right; exact K.
      * intros m K. specialize (y_cb0 m K). congruence.
      * intros p0 b0 K. apply (y_byte p0 b0). rewrite E. right; exact K.
      * intros p0 b0 K. apply (y_loc p0 b0). rewrite E. right; exact K.
      * intros k m j Hk Hm Hj. rewrite <- (y_mem k m j) by auto. rewrite E. reflexivity.
      * destruct (x_pr s); auto; [|intro K; specialize (y_p K); congruence].
        destruct y_p as (V1 & V2 & V3 & V4 & V5 & V6 & V7). repeat (split; [assumption|]). intros j Hj. rewrite <- V7 by exact Hj. rewrite E. reflexivity.
    + destruct S. constructor; unfold xover in *; xb; auto.
    + destruct L. rewrite E in *. cbn [c_min min_sorted] in *. destruct y_min as (M1 & M2 & M0 & M3). destruct y_sort as [M4 M5]. constructor; xb; auto.
      * split; [exact M1|]. split; [apply M0; left; reflexivity|]. split; [|exact M3]. intros v K. apply M0. right; exact K.
      * intros mid m0 mid2 earlier K. destruct (y_clr mid m0 mid2 earlier K). split; [lia|assumption].
Qed.
Lemma xflush_inv s s' A c d e : xinv one s A c d e -> xflush s s' -> exists c' e', xinv one s' A c' d e'.
Proof.
  intros I H. destruct H as [s ev b s' EB EC|s x b EB|s EB|s EB].
  - destruct (xcommit_inv s A c d e ev b s' I EB EC) as (c' & I'). eauto.
  - exists c, d. destruct I as (Q & S & L). destruct (y_ob _ _ _ _ _ _ Q) as [[X _]|(X & EE & W)]; [congruence|]. rewrite X in EB. injection EB as <- <-.
    split; [|split].
    + destruct Q. constructor; unfold xp, xw, xshape in *; xb; auto; try lia.
      * intros p v K. destruct (y_loc p v K). split; [nia|assumption].
      * destruct (x_pr s); auto; [destruct y_p as (? & ? & ?)|destruct y_p as (? & ? & ? & ?)]; subst e; (split; [assumption|]; split; [assumption|]); [nia|].
        split; [|assumption]. nia.
    + destruct S. constructor; unfold xover in *; xb; auto. intro K. destruct (y_dd K) as (? & ? & ?). congruence.
    + apply (xl_same s); auto.
  - exists c, e. destruct I as (Q & S & L). split; [|split].
    + destruct Q. constructor; unfold xp, xw, xshape in *; xb; auto.
    + destruct S. pose proof (y_wfl EB) as EW. constructor; unfold xover in *; xb; auto; try discriminate.
      * intro K. destruct (y_dp K) as (_ & ? & ?). auto.
      * intro K. destruct (y_dd K) as (? & ? & ?). congruence.
    + apply (xl_same s); auto.
  - exists c, e. destruct I as (Q & S & L). split; [|split].
    + destruct Q. constructor; unfold xp, xw, xshape in *; xb; auto.
    + destruct S. pose proof (y_dfl EB) as ED. constructor; unfold xover in *; xb; rewrite ?ED in *; auto; try discriminate.
      intros _. right. apply y_des. discriminate.
    + apply (xl_same s); auto.
Qed.

Lemma xpush_inv s m A c d e : xinv one s A c d e -> x_pr s = FIdle -> zlen m + 8 = one -> xinv one (xset_pr (xemit s (KPush m)) (F111 m)) A c d e.
Proof.
  intros (Q & S & L) EP HM. split; [|split].
  - destruct Q. xq EP.
  - destruct S. xs EP; xdl. intros K. apply kended_cons. auto.
  - destruct L. rewrite EP in *. xb. constructor; xb; auto; xe. rewrite y_sent, app_nil_r. reflexivity.
Qed.
Lemma xclear_inv s A c d e : xinv one s A c d e -> x_pr s = FIdle -> xinv one (xset_pr (xemit s KClear) F153) A c d e.
Proof.
  intros (Q & S & L) EP. split; [|split].
  - destruct Q. xq EP.
  - destruct S. xs EP; xdl. intros K. apply kended_cons. auto.
  - destruct L. rewrite EP in *. xb. constructor; xb; auto; xe.
    + destruct y_min as (M1 & M2 & M0 & M3). rewrite app_nil_r in y_acc. rewrite <- y_acc in *. split; [lia|]. split; [lia|]. split; [|lia].
      intros v K. destruct (M0 v K). lia.
    + intros k H. destruct Q. rewrite app_nil_r in y_acc. rewrite <- y_acc in H. destruct (held (x_wk s)); lia.
Qed.
Lemma xdestroy_inv s A c d e : xinv one s A c d e -> x_ds s = ENone -> xinv one (xset_ds (xemit s KDestroy) E165) A c d e.
Proof.
  intros (Q & S & L) ED. split; [|split].
  - destruct Q. xq ED.
  - destruct S. xs ED; xdl; try (intros K; apply kended_cons; auto; fail); try (intros; left; reflexivity).
    match goal with X : In KDestroyed _ |- _ => specialize (y_dl X); discriminate end.
  - destruct L. constructor; xb; auto; xe.
Qed.
End Step.
