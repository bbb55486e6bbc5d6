From Verif Require Import CBase SeqLib RingBuffer2Model RingBuffer2Proof MsgQueueModel MsgQueueSpec MsgQueueProof
  SpscModel SpscSpec SpscProof SpscProof2 SpscProof3 SpscProof4 HandlerModel HandlerSpec HandlerProof HandlerProof2.

Ltac uf := unfold pcon, ccon, bcon, tok, post, dp, npop, nacc, over, cbpend, hflight, hpend in *.
Ltac cb := cbn [set_wk set_buf set_inner set_pr set_sem set_flag set_ds hemit wk inner buf bsize sem flag pr ds hlog
                set_pp emit log pp cp csize accepted pops sent at_ccall hsent haccepted callbacks] in *.

Section Step.
Variable q : rb Z.
Hypothesis good : good_queue q.

Lemma pexec_inv s : hinv q s -> exists o, pexec s = Ret o /\ (forall s', o = Some s' -> hinv q s').
Proof.
  intro HI. pose proof HI as H. destruct H. unfold pexec. unfold pcon in h_p.
  destruct (pr s) as [|m|m|m|m c] eqn:EP.
  - eexists; split; [reflexivity|discriminate].
  - destruct h_p as [h_p Hm]. destruct (flag s) eqn:EF.
    + eexists; split; [reflexivity|]. intros s' K. injection K as <-.
      unfold MQ_NULL_HANDLE. constructor; uf; cb; rewrite ?EP in *; change (2 =? 0) with false; cbn iota; rewrite ?EF; auto.
    + eexists; split; [reflexivity|]. intros s' K. injection K as <-.
      assert (reach q (set_pp (emit (inner s) (EPush m)) (P44 m))) as R1.
      { apply (RS q (inner s)); [exact h_reach|]. apply SPush; [exact h_p|exact Hm]. }
      constructor; uf; cb; rewrite ?EP in *; cbn [pin]; rewrite ?app_nil_r in *; rewrite ?EF; auto.
  - destruct (spsc_no_fault q (inner s) good h_reach) as ((i1 & HS) & _). rewrite HS. cbn [bind].
    destruct (pstep_pin (inner s) i1 m HS h_p) as [Ecp Hcase].
    assert (reach q i1) as R1 by (apply (RS q (inner s)); [exact h_reach|apply SP; exact HS]).
    assert (csize i1 = csize (inner s)) as ES.
    { rewrite (reach_size q i1 R1), (reach_size q (inner s) h_reach). reflexivity. }
    destruct Hcase as [(c & EC & EL & EI)|(NC & EL & HC1)].
    + rewrite EC. eexists; split; [reflexivity|]. intros s' K. injection K as <-.
      unfold MQ_SUCCESS in *. destruct (c =? 0) eqn:E0.
      * assert (c = 0) by lia; subst c.
        constructor; uf; cb; rewrite ?EP, ?EL, ?EI, ?ES, ?Ecp in *; cb; change (0 =? 0) with true in *; cbn iota in *; auto.
        -- rewrite zlen_app. change (zlen [m]) with 1. destruct h_cnt as [h_cnt|h_cnt]; [left; exact h_cnt|right; lia].
        -- rewrite app_nil_r in h_acc. rewrite h_acc. reflexivity.
      * constructor; uf; cb; rewrite ?EP, ?EL, ?EI, ?ES, ?Ecp in *; cb; rewrite ?E0; cbn iota in *; auto.
        assert (exists l, sent (log (inner s)) = l ++ [m]) as (l & El).
        { destruct (reach_inv q (inner s) good h_reach) as (D & R & I). destruct I. rewrite EC in i_sent. cbn [pflight] in i_sent.
          rewrite E0 in i_sent. eauto. }
        rewrite h_sent, El, removelast_snoc, app_nil_r. reflexivity.
    + assert (exists o, Ret (Some (match pp (inner s) with
          | PRet _ code => if code =? MQ_SUCCESS then set_pr (set_inner s i1) (H152 m) else set_pr (set_inner s i1) (HRet m code)
          | _ => set_inner s i1 end)) = Ret o /\ o = Some (set_inner s i1)) as (o & HO & Ho).
      { destruct (pp (inner s)) as [|?|? ?|? ? ? ? ?|m0 c0] eqn:EC; try (eexists; split; reflexivity).
        exfalso. cbn in h_p. subst m0. apply (NC c0). reflexivity. }
      exists o. split; [exact HO|]. intros s' K. rewrite Ho in K. injection K as <-.
      constructor; uf; cb; rewrite ?EP, ?EL, ?ES, ?Ecp in *; auto.
  - eexists; split; [reflexivity|]. intros s' K. injection K as <-. unfold MQ_SUCCESS.
    constructor; uf; cb; rewrite ?EP in *; change (0 =? 0) with true; cbn iota; auto.
    + lia.
    + destruct h_cnt as [h_cnt|h_cnt]; [left; exact h_cnt|right; lia].
    + intro K. destruct (h_dp K) as [F [X|[X|X]]]; auto. split; [exact F|]. right; right. lia.
  - eexists; split; [reflexivity|]. intros s' K. injection K as <-.
    constructor; uf; cb; rewrite ?EP in *; auto.
    + rewrite h_sent. destruct (c =? 0); [reflexivity|]. rewrite removelast_snoc, app_nil_r. reflexivity.
    + rewrite h_acc. destruct (c =? 0); rewrite ?app_nil_r; reflexivity.
    + intro K. apply ended_cons. auto.
    + intro K. right. auto.
Qed.

Lemma dexec_inv s s' : hinv q s -> dexec s = Some s' -> hinv q s'.
Proof.
  intros HI H. destruct HI. unfold dexec in H. destruct (ds s) eqn:ED; try discriminate.
  - injection H as <-. constructor; uf; cb; rewrite ?ED in *; auto; try discriminate.
    + intros _. right; right. apply h_des. discriminate.
    + intros _. apply h_des. discriminate.
  - injection H as <-. constructor; uf; cb; rewrite ?ED in *; auto; try discriminate.
    + lia.
    + destruct h_cnt as [h_cnt|h_cnt]; [left; exact h_cnt|right; lia].
    + intros _. split; [auto|]. right; right. lia.
    + intros _. apply h_des. discriminate.
  - destruct (wk s) eqn:EW; try discriminate. injection H as <-. constructor; uf; cb; rewrite ?ED, ?EW in *; auto; try discriminate.
    + intro K. apply ended_cons. auto.
    + intros _. right. apply h_des. discriminate.
Qed.

Lemma hstep_inv s s' : rb_size q <= 1073741824 -> hinv q s -> hstep s s' -> hinv q s'.
Proof.
  intros SM HI H. destruct H as [s c s' H|s s' H|s s' H|s m EP ED Hm|s ED EP].
  - destruct (wexec_inv q good SM c s HI) as (o & E & K). rewrite H in E. injection E as <-. auto.
  - destruct (pexec_inv s HI) as (o & E & K). rewrite H in E. injection E as <-. auto.
  - eapply dexec_inv; eauto.
  - destruct HI. constructor; uf; cb; rewrite ?EP in *; auto.
    + rewrite h_sent, app_nil_r. reflexivity.
    + intro K. apply ended_cons. auto.
    + intro K. right. auto.
  - destruct HI. constructor; uf; cb; rewrite ?EP, ?ED in *; auto; try discriminate.
    + intro K. right; right; left; reflexivity.
    + intros _. left; reflexivity.
Qed.

Lemma hboot_inv : hinv q (hboot q).
Proof.
  constructor; uf; cbn; auto; try discriminate; try lia.
  - apply R0.
  - intros [K|[K|K]]; discriminate.
Qed.
Lemma hreach_inv s : rb_size q <= 1073741824 -> hreach q s -> hinv q s.
Proof. intros SM H. induction H; [apply hboot_inv|eapply hstep_inv; eauto]. Qed.
End Step.

(** ** consequences *)
Lemma F2_map_begins (l : list (list Z * list Z * Z)) D : Forall2 stored l D -> Forall2 begins (map t' l) D.
Proof.
  induction 1 as [|[[t t1] cap] m l D [_ ->] _ IH]; cbn; constructor; auto. eexists; reflexivity.
Qed.
Lemma F2_app_l {A B} (P : A -> B -> Prop) l1 l2 D : Forall2 P (l1 ++ l2) D -> exists D1 D2, D = D1 ++ D2 /\ Forall2 P l1 D1.
Proof. intro H. apply Forall2_app_inv_l in H as (D1 & D2 & A1 & A2 & ->). eauto. Qed.

Lemma handler_order q s : good_queue q -> rb_size q <= 1073741824 -> hreach q s ->
  exists D, prefix D (hsent (hlog s)) /\ Forall2 begins (callbacks (hlog s)) D.
Proof.
  intros G SM H. apply hreach_inv in H; auto. destruct H.
  destruct (spsc_fifo q (inner s) G h_reach) as (_ & D & (X & HD) & F). apply F2_map_begins in F.
  rewrite <- h_cbs in F. apply F2_app_l in F as (D1 & D2 & -> & F). exists D1. split; [|exact F].
  rewrite h_sent, HD, <- !app_assoc. eexists; reflexivity.
Qed.

Lemma app_eq_len {A} (a b x y : list A) : a ++ x = b ++ y -> length a = length b -> a = b.
Proof.
  revert b. induction a as [|u a IH]; intros [|v b] E L; try discriminate; auto.
  cbn in *. injection E as -> E. injection L as L. f_equal. apply IH; auto.
Qed.
Lemma handler_all q s : good_queue q -> rb_size q <= 1073741824 -> hreach q s ->
  asleep s -> pr s = HIdle -> ~ ended (hlog s) -> Forall2 begins (callbacks (hlog s)) (haccepted (hlog s)).
Proof.
  intros G SM H [EW ES] EP NE. apply hreach_inv in H; auto. destruct H.
  destruct (spsc_fifo q (inner s) G h_reach) as ((Y & HY) & D & (X & HD) & F).
  assert (dp s = 0) as D0.
  { unfold dp in *. destruct (ds s); try reflexivity; exfalso; apply NE; right; right; apply h_des; discriminate. }
  unfold over, nacc, npop, tok, post, cbpend, hpend, ccon in *. rewrite EW, EP in *.
  destruct h_cnt as [[K|K]|K]; try discriminate. rewrite h_c in K. cbn [cpend] in K. z0.
  apply F2_map_begins in F. rewrite <- h_cbs in F. rewrite !app_nil_r in *. rewrite <- h_acc.
  assert (length D = length (accepted (log (inner s)))) as EL.
  { apply F2_length in F. rewrite <- F. rewrite h_cbs, map_length. unfold zlen in K. lia. }
  assert (D = accepted (log (inner s))) as <-; [|exact F].
  rewrite HY in HD. symmetry in HD. eapply app_eq_len; eauto.
Qed.

(** a push is refused only after something ended the handler *)
Definition refused_ok (s : hst) : Prop :=
  (forall m c, In (HPushRet m c) (hlog s) -> c = 0 \/ c = 5 \/ (c = 2 /\ ended (hlog s))) /\
  (forall m c, pr s = HRet m c -> c = 0 \/ c = 5 \/ (c = 2 /\ ended (hlog s))).
Lemma refused_step q s s' : good_queue q -> rb_size q <= 1073741824 -> hreach q s -> hstep s s' -> refused_ok s -> refused_ok s'.
Proof.
  intros G SM HR HS (A & B). pose proof (hreach_inv q G s SM HR) as HI.
  assert (forall e, (forall m c, e <> HPushRet m c) -> forall s1, hlog s1 = e :: hlog s -> pr s1 = pr s -> refused_ok s1) as K1.
  { intros e NE s1 E1 E2. split; intros m c X; [rewrite E1 in X; destruct X as [X|X]; [exfalso; apply (NE m c X)|]|rewrite E2 in X].
    - destruct (A m c X) as [?|[?|[? ?]]]; auto. right; right. split; [assumption|]. rewrite E1. apply ended_cons; assumption.
    - destruct (B m c X) as [?|[?|[? ?]]]; auto. right; right. split; [assumption|]. rewrite E1. apply ended_cons; assumption. }
  assert (forall s1, hlog s1 = hlog s -> pr s1 = pr s -> refused_ok s1) as K2.
  { intros s1 E1 E2. unfold refused_ok. rewrite E1, E2. split; assumption. }
  destruct HS as [s c s' H|s s' H|s s' H|s m EP ED Hm|s ED EP].
  - unfold wexec in H. destruct (wk s) eqn:EW.
    + destruct (c_mem c); [destruct (_ =? _)|]; try discriminate; injection H as <-; [apply K2; reflexivity|].
      apply (K1 HOom); try reflexivity; discriminate.
    + injection H as <-; apply K2; reflexivity.
    + destruct (_ <? _); try discriminate; injection H as <-; apply K2; reflexivity.
    + injection H as <-; apply K2; reflexivity.
    + injection H as <-; apply K2; reflexivity.
    + destruct (cstep (inner s)); cbn [bind] in H; try discriminate. injection H as <-.
      apply K2; destruct (cp (inner s)); try reflexivity; destruct (_ =? MQ_SUCCESS); try reflexivity; destruct (_ =? MQ_BUF_NOT_ENOUGH); reflexivity.
    + destruct (roundup_power2 size); cbn [bind] in H; try discriminate.
      destruct (c_mem c); [destruct (_ =? _)|]; try discriminate; injection H as <-; [apply K2; reflexivity|].
      apply (K1 HOom); try reflexivity; discriminate.
    + injection H as <-; apply (K1 (HCb (buf s))); try reflexivity; discriminate.
    + injection H as <-; apply (K1 (HCbRet (c_ret c))); try reflexivity; discriminate.
    + injection H as <-; apply K2; reflexivity.
    + discriminate.
  - unfold pexec in H. destruct (pr s) as [|m|m|m|m c] eqn:EP; try discriminate.
    + destruct (flag s) eqn:EF; injection H as <-.
      * split; [exact A|]. intros m' c' X. cbn in X. injection X as <- <-. right; right. split; [reflexivity|].
        cbn. apply (h_end q s HI). left; exact EF.
      * split; [exact A|]. intros m' c' X. discriminate.
    + destruct (pstep (inner s)) as [i'| | |] eqn:EI; cbn [bind] in H; try discriminate. injection H as <-.
      destruct (pp (inner s)) as [|?|? ?|? ? ? ? ?|m0 c0] eqn:EPP; try (split; [exact A|]; intros m' c' X; cbn in X; rewrite EP in X; discriminate).
      unfold MQ_SUCCESS. destruct (c0 =? 0) eqn:E0; (split; [exact A|]); intros m' c' X; cbn in X; try discriminate.
      injection X as <- <-. destruct HI.
      pose proof (spsc_events q i' (EPushRet m0 c0) [] (log (inner s)) G) as EV.
      assert (log i' = EPushRet m0 c0 :: log (inner s)) as EL.
      { unfold pstep in EI. rewrite EPP in EI. injection EI as <-. reflexivity. }
      specialize (EV ltac:(eapply RS; [exact h_reach|]; apply SP; exact EI) EL). cbn in EV. destruct EV as [?|[? _]]; auto.
    + injection H as <-. split; [exact A|]. intros m' c' X. cbn in X. injection X as <- <-. left; reflexivity.
    + injection H as <-. split; [|intros m' c' X; discriminate]. intros m' c' [X|X].
      * injection X as <- <-. destruct (B m c eq_refl) as [?|[?|[? ?]]]; auto. right; right. split; [assumption|]. apply ended_cons; assumption.
      * destruct (A m' c' X) as [?|[?|[? ?]]]; auto. right; right. split; [assumption|]. apply ended_cons; assumption.
  - unfold dexec in H. destruct (ds s); try discriminate; try (injection H as <-; apply K2; reflexivity).
    destruct (wk s); try discriminate. injection H as <-. apply (K1 HDestroyed); try reflexivity; discriminate.
  - split.
    + intros m' c' [X|X]; [discriminate|]. destruct (A m' c' X) as [?|[?|[? ?]]]; auto. right; right. split; [assumption|]. apply ended_cons; assumption.
    + intros m' c' X. discriminate.
  - apply (K1 HDestroy); try reflexivity; discriminate.
Qed.
Lemma handler_refused q s m c : good_queue q -> rb_size q <= 1073741824 -> hreach q s -> In (HPushRet m c) (hlog s) ->
  c = 0 \/ c = 5 \/ (c = 2 /\ ended (hlog s)).
Proof.
  intros G SM H. assert (refused_ok s) as [A _]; [|apply A].
  induction H; [|eapply refused_step; eauto]. split; [intros ? ? []|intros ? ? X; discriminate].
Qed.

Lemma handler_progress q s : good_queue q -> rb_size q <= 1073741824 -> hreach q s ->
  wk s = WDone \/ asleep s \/ exists c s', wexec c s = Ret (Some s').
Proof.
  intros G SM H. pose proof (hreach_inv q G s SM H) as HI.
  pose proof (wexec_inv q G SM) as WE.
  destruct (wk s) eqn:EW; auto.
  - right; right. exists {| c_mem := None; c_ret := 0 |}. unfold wexec. rewrite EW. cbn. eauto.
  - right; right. exists {| c_mem := None; c_ret := 0 |}. unfold wexec. rewrite EW. eauto.
  - destruct (Z_lt_dec 0 (sem s)).
    + right; right. exists {| c_mem := None; c_ret := 0 |}. unfold wexec. rewrite EW. destruct (0 <? sem s) eqn:E; [eauto|lia].
    + right; left. split; [exact EW|]. pose proof (h_sem q s HI). lia.
  - right; right. exists {| c_mem := None; c_ret := 0 |}. unfold wexec. rewrite EW. eauto.
  - right; right. exists {| c_mem := None; c_ret := 0 |}. unfold wexec. rewrite EW. eauto.
  - right; right. exists {| c_mem := None; c_ret := 0 |}. unfold wexec. rewrite EW.
    destruct (spsc_no_fault q (inner s) G (h_reach q s HI)) as (_ & i1 & HS). rewrite HS. cbn [bind]. eauto.
  - right; right. exists {| c_mem := None; c_ret := 0 |}. destruct (WE {| c_mem := None; c_ret := 0 |} s HI) as (o & E & _).
    unfold wexec in *. rewrite EW in *. destruct (roundup_power2 size); cbn [bind c_mem] in *; try discriminate. eauto.
  - right; right. exists {| c_mem := None; c_ret := 0 |}. unfold wexec. rewrite EW. eauto.
  - right; right. exists {| c_mem := None; c_ret := 0 |}. unfold wexec. rewrite EW. eauto.
  - right; right. exists {| c_mem := None; c_ret := 0 |}. unfold wexec. rewrite EW. eauto.
Qed.
Lemma handler_join q s : good_queue q -> rb_size q <= 1073741824 -> hreach q s -> ds s = D177 -> ~ asleep s.
Proof.
  intros G SM H E [A B]. pose proof (hreach_inv q G s SM H) as HI.
  destruct (h_dp q s HI) as [_ [K|[[K|K]|K]]]; try congruence; try lia. unfold dp; rewrite E; reflexivity.
Qed.
