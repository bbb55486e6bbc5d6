From Verif Require Import CBase SeqLib RingBuffer2Model RingBuffer2Proof MsgQueueModel MsgQueueSpec MsgQueueProof SpscModel SpscSpec SpscProof SpscProof2 SpscProof3 SpscProof4.
From Verif Require Import HandlerModel HandlerSpec HandlerProof HandlerProof2 HandlerProof3 MqTsoModel MqTsoSpec MqTsoProof MqTsoProof2 MqTsoProof3 HdTsoModel HdTsoSpec HdTsoProof.

Section Step.
Variable q : rb Z.
Hypothesis good : good_queue q.

Lemma pexec_inv s : ginv q s -> exists o, gpexec s = Ret o /\ (forall s', o = Some s' -> ginv q s').
Proof.
  intro HI. pose proof HI as H. destruct H. unfold gpexec. pose proof h_p as HP0. unfold pcon in HP0.
  destruct (g_pr s) as [|m|m|m|m c] eqn:EP.
  - eexists; split; [reflexivity|discriminate].
  - destruct HP0 as [HP0 Hm]. destruct (g_flag s) eqn:EF.
    + eexists; split; [reflexivity|]. intros s' K. injection K as <-.
      unfold MQ_NULL_HANDLE. constructor; ug; cg; rewrite ?EP in *; change (2 =? 0) with false in *; cbn iota in *; rewrite ?EF in *; fin.
    + eexists; split; [reflexivity|]. intros s' K. injection K as <-.
      assert (treach false q (tset_pp (temit (g_q s) (E (EPush m))) (P44 m))) as R1.
      { apply (TS false q (g_q s)); [exact h_reach|]. apply TPush; [exact HP0|exact Hm]. }
      constructor; ug; cg; rewrite ?EP in *; cbn [pin wb_ok] in *; rewrite ?app_nil_r in *; rewrite ?EF in *; fin.
  - destruct (tno_fault q (g_q s) good h_reach) as ((i1 & HS) & _). rewrite HS. cbn [bind].
    destruct (tpstep_pin (g_q s) i1 m HS HP0) as (Ecp & Erb & WB & Hcase).
    assert (treach false q i1) as R1 by (apply (TS false q (g_q s)); [exact h_reach|apply TP; exact HS]).
    assert (t_size i1 = t_size (g_q s)) as ES.
    { rewrite (treach_size false q i1 R1), (treach_size false q (g_q s) h_reach). reflexivity. }
    destruct Hcase as [(c & EC & EL & EI & EWB)|(NC & EL & HC1)].
    + rewrite EC. eexists; split; [reflexivity|]. intros s' K. injection K as <-.
      unfold MQ_SUCCESS in *. destruct (c =? 0) eqn:E0.
      * assert (c = 0) by lia; subst c.
        constructor; ug; cg; rewrite ?EP, ?EL, ?EI, ?ES, ?Ecp in *; cg; change (0 =? 0) with true in *; cbn iota in *; fin.
        -- rewrite zlen_app. change (zlen [m]) with 1. destruct h_cnt as [h_cnt|h_cnt]; [left; exact h_cnt|right; lia].
        -- rewrite zlen_app. change (zlen [m]) with 1. lia.
        -- rewrite app_nil_r in h_acc. rewrite h_acc. reflexivity.
      * assert (exists l, sent (plain (t_log (g_q s))) = l ++ [m]) as (l & El).
        { destruct (treach_inv q (g_q s) good h_reach) as (D & R & p & k & I). destruct I. rewrite EC in v_sent. cbn [pflight] in v_sent.
          rewrite E0 in v_sent. eauto. }
        constructor; ug; cg; rewrite ?EP, ?EL, ?EI, ?ES, ?Ecp in *; cg; rewrite ?E0 in *; cbn iota in *; fin.
        -- rewrite h_sent, El, removelast_snoc, app_nil_r. reflexivity.
        -- rewrite EWB. rewrite EC in h_wb. cbn [wb_ok] in h_wb. apply h_wb. lia.
    + assert (exists o, Ret (Some (match t_pp (g_q s) with
          | PRet _ code => if code =? MQ_SUCCESS then gset_pr (gset_q s i1) (H152 m) else gset_pr (gset_q s i1) (HRet m code)
          | _ => gset_q s i1 end)) = Ret o /\ o = Some (gset_q s i1)) as (o & HO & Ho).
      { destruct (t_pp (g_q s)) as [|?|? ?|? ? ? ? ?|m0 c0] eqn:EC; try (eexists; split; reflexivity).
        exfalso. cbn in HP0. subst m0. apply (NC c0). reflexivity. }
      exists o. split; [exact HO|]. intros s' K. rewrite Ho in K. injection K as <-.
      constructor; ug; cg; rewrite ?EP, ?EL, ?ES, ?Ecp in *; fin.
  - destruct (t_wbuf (g_q s)) eqn:EWB; [|eexists; split; [reflexivity|discriminate]].
    assert (treach false q (temit (g_q s) WSync)) as R1 by (apply (TS false q (g_q s)); [exact h_reach|apply TWSync; auto]).
    eexists; split; [reflexivity|]. intros s' K. injection K as <-. unfold MQ_SUCCESS.
    constructor; ug; cg; rewrite ?EP in *; change (0 =? 0) with true; cbn iota; fin.
    + lia.
    + destruct h_cnt as [h_cnt|h_cnt]; [left; exact h_cnt|right; lia].
    + lia.
    + intro K. destruct (h_dp K) as [F [X|[X|X]]]; auto. split; [exact F|]. right; right. lia.
  - eexists; split; [reflexivity|]. intros s' K. injection K as <-.
    constructor; ug; cg; rewrite ?EP in *; fin.
    + rewrite h_sent. destruct (c =? 0); [reflexivity|]. rewrite removelast_snoc, app_nil_r. reflexivity.
    + rewrite h_acc. destruct (c =? 0); rewrite ?app_nil_r; reflexivity.
    + intro K. apply ended_cons. auto.
Qed.

Lemma dexec_inv s s' : ginv q s -> gdexec s = Some s' -> ginv q s'.
Proof.
  intros HI H. destruct HI. unfold gdexec in H. destruct (g_ds s) eqn:ED; try discriminate H.
  - injection H as <-. constructor; ug; cg; rewrite ?ED in *; fin.
    + intros _. right; right. apply h_des. discriminate.
  - destruct (g_dfl s) eqn:EF; try discriminate H. injection H as <-.
    constructor; ug; cg; rewrite ?ED, ?EF in *; fin.
    + lia.
    + destruct h_cnt as [h_cnt|h_cnt]; [left; exact h_cnt|right; lia].
    + intros _. split; [intuition congruence|]. right; right. lia.
  - destruct (g_wk s) eqn:EW; try discriminate H. destruct (t_rbuf (g_q s)) eqn:ER; try discriminate H. destruct (g_wfl s) eqn:EF; try discriminate H.
    injection H as <-. constructor; ug; cg; rewrite ?ED, ?EW, ?EF in *; fin.
    + intro K. apply ended_cons. auto.
    + intros _. destruct h_des as [X Y]; [discriminate|]. split; [right; exact X|exact Y].
Qed.

Lemma flush_inv s s' : ginv q s -> gflush s s' -> ginv q s'.
Proof.
  intros HI H. destruct H as [s e b i EB H|s x b EB|s EF|s EF]; destruct HI.
  - destruct (commit_keeps _ _ _ H) as (K1 & K2 & K3 & K4 & K5 & K6). cbn [tset_wbuf t_cp t_pp t_log t_wbuf t_rbuf t_size] in *.
    assert (treach false q i) as R1.
    { apply (TS false q (g_q s)); [exact h_reach|]. apply (TWFlush false (g_q s) i [] e b); auto. }
    constructor; ug; cg; rewrite ?K1, ?K2, ?K3, ?K6 in *; fin.
    rewrite K4. destruct (g_pr s); try congruence; auto. rewrite EB in h_wb. unfold wb_ok in *. destruct (t_pp (g_q s)); auto; try discriminate.
    intro X. specialize (h_wb X). discriminate.
  - assert (treach false q (tset_rbuf (tset_out (g_q s) x) b)) as R1.
    { apply (TS false q (g_q s)); [exact h_reach|]. apply TRFlush; exact EB. }
    constructor; ug; cg; fin.
  - constructor; ug; cg; fin.
  - constructor; ug; cg; fin.
Qed.

Lemma gstep_inv s s' : rb_size q <= 1073741824 -> ginv q s -> gstep s s' -> ginv q s'.
Proof.
  intros SM HI H. destruct H as [s c s' H|s s' H|s s' H|s s' H|s m EP ED Hm|s ED EP].
  - destruct (wexec_inv q good SM c s HI) as (o & EE & K). rewrite H in EE. injection EE as <-. auto.
  - destruct (pexec_inv s HI) as (o & EE & K). rewrite H in EE. injection EE as <-. auto.
  - eapply dexec_inv; eauto.
  - eapply flush_inv; eauto.
  - destruct HI. constructor; ug; cg; rewrite ?EP in *; fin.
    + rewrite h_sent, app_nil_r. reflexivity.
    + intro K. apply ended_cons. auto.
  - destruct HI. constructor; ug; cg; rewrite ?EP, ?ED in *; fin.
    + intro K. right; right; left; reflexivity.
    + intros _. split; [left; reflexivity|reflexivity].
Qed.

Lemma gboot_inv : ginv q (gboot q).
Proof.
  constructor; ug; cbn; auto; try discriminate; try lia.
  - apply T0.
  - intros [K|[K|[K|[K|K]]]]; discriminate K.
Qed.
Lemma greach_inv s : rb_size q <= 1073741824 -> greach q s -> ginv q s.
Proof. intros SM H. induction H; [apply gboot_inv|eapply gstep_inv; eauto]. Qed.
End Step.

(** ** consequences *)

Lemma ghandler_order q s : good_queue q -> rb_size q <= 1073741824 -> greach q s ->
  exists D, prefix D (hsent (g_log s)) /\ Forall2 begins (callbacks (g_log s)) D.
Proof.
  intros G SM H. apply greach_inv in H; auto. destruct H.
  destruct (tfifo q (g_q s) G h_reach) as (_ & D & (X & HD) & F). apply F2_map_begins in F.
  rewrite <- h_cbs in F. apply F2_app_l in F as (D1 & D2 & -> & F). exists D1. split; [|exact F].
  rewrite h_sent, HD, <- !app_assoc. eexists; reflexivity.
Qed.

Lemma ghandler_all q s : good_queue q -> rb_size q <= 1073741824 -> greach q s ->
  gasleep s -> g_pr s = HIdle -> ~ ended (g_log s) -> Forall2 begins (callbacks (g_log s)) (haccepted (g_log s)).
Proof.
  intros G SM H [EW ES] EP NE. apply greach_inv in H; auto. destruct H.
  destruct (tfifo q (g_q s) G h_reach) as ((Y & HY) & D & (X & HD) & F).
  assert (dp s = 0) as D0.
  { unfold dp in *. destruct (g_ds s); try reflexivity; exfalso; apply NE; right; right; apply h_des; discriminate. }
  unfold over, nacc, npop, tok, post, cbpend, hpend, ccon in *. rewrite EW, EP in *.
  destruct h_cnt as [[K|K]|K]; try discriminate. rewrite h_c in K. cbn [cpend] in K. z0.
  apply F2_map_begins in F. rewrite <- h_cbs in F. rewrite !app_nil_r in *. rewrite <- h_acc.
  assert (length D = length (accepted (plain (t_log (g_q s))))) as EL.
  { apply F2_length in F. rewrite <- F. rewrite h_cbs, map_length. unfold zlen in K. lia. }
  assert (D = accepted (plain (t_log (g_q s)))) as <-; [|exact F].
  rewrite HY in HD. symmetry in HD. eapply app_eq_len; eauto.
Qed.

(** a push is refused only after something ended the handler *)
Definition grefused_ok (s : gst) : Prop :=
  (forall m c, In (HPushRet m c) (g_log s) -> c = 0 \/ c = 5 \/ (c = 2 /\ ended (g_log s))) /\
  (forall m c, g_pr s = HRet m c -> c = 0 \/ c = 5 \/ (c = 2 /\ ended (g_log s))).
Lemma grefused_step q s s' : good_queue q -> rb_size q <= 1073741824 -> greach q s -> gstep s s' -> grefused_ok s -> grefused_ok s'.
Proof.
  intros G SM HR HS (A & B). pose proof (greach_inv q G s SM HR) as HI.
  assert (forall e, (forall m c, e <> HPushRet m c) -> forall s1, g_log s1 = e :: g_log s -> g_pr s1 = g_pr s -> grefused_ok s1) as K1.
  { intros e NE s1 E1 E2. split; intros m c X; [rewrite E1 in X; destruct X as [X|X]; [exfalso; apply (NE m c X)|]|rewrite E2 in X].
    - destruct (A m c X) as [?|[?|[? ?]]]; auto. right; right. split; [assumption|]. rewrite E1. apply ended_cons; assumption.
    - destruct (B m c X) as [?|[?|[? ?]]]; auto. right; right. split; [assumption|]. rewrite E1. apply ended_cons; assumption. }
  assert (forall s1, g_log s1 = g_log s -> g_pr s1 = g_pr s -> grefused_ok s1) as K2.
  { intros s1 E1 E2. unfold grefused_ok. rewrite E1, E2. split; assumption. }
  destruct HS as [s c s' H|s s' H|s s' H|s s' H|s m EP ED Hm|s ED EP].
  - unfold gwexec in H. destruct (g_wk s) eqn:EW.
    + destruct (c_mem c); [destruct (_ =? _)|]; try discriminate; injection H as <-; [apply K2; reflexivity|].
      apply (K1 HOom); try reflexivity; discriminate.
    + injection H as <-; apply K2; reflexivity.
    + destruct (t_rbuf (g_q s)); try discriminate H. destruct (_ <? _); try discriminate H; injection H as <-; apply K2; reflexivity.
    + injection H as <-; apply K2; reflexivity.
    + injection H as <-; apply K2; reflexivity.
    + destruct (tcstep (g_q s)); cbn [bind] in H; try discriminate. injection H as <-.
      apply K2; destruct (t_cp (g_q s)); try reflexivity; destruct (_ =? MQ_SUCCESS); try reflexivity; destruct (_ =? MQ_BUF_NOT_ENOUGH); reflexivity.
    + destruct (roundup_power2 size); cbn [bind] in H; try discriminate.
      destruct (c_mem c); [destruct (_ =? _)|]; try discriminate; injection H as <-; [apply K2; reflexivity|].
      apply (K1 HOom); try reflexivity; discriminate.
    + injection H as <-; apply (K1 (HCb (g_buf s))); try reflexivity; discriminate.
    + injection H as <-; apply (K1 (HCbRet (c_ret c))); try reflexivity; discriminate.
    + injection H as <-; apply K2; reflexivity.
    + discriminate.
  - unfold gpexec in H. destruct (g_pr s) as [|m|m|m|m c] eqn:EP; try discriminate.
    + destruct (g_flag s) eqn:EF; injection H as <-.
      * split; [exact A|]. intros m' c' X. cbn in X. injection X as <- <-. right; right. split; [reflexivity|].
        cbn. apply (h_end q s HI). left; exact EF.
      * split; [exact A|]. intros m' c' X. discriminate.
    + destruct (tpstep (g_q s)) as [i'| | |] eqn:EI; cbn [bind] in H; try discriminate. injection H as <-.
      destruct (t_pp (g_q s)) as [|?|? ?|? ? ? ? ?|m0 c0] eqn:EPP; try (split; [exact A|]; intros m' c' X; cbn in X; rewrite EP in X; discriminate).
      unfold MQ_SUCCESS. destruct (c0 =? 0) eqn:E0; (split; [exact A|]); intros m' c' X; cbn in X; try discriminate.
      injection X as <- <-. destruct HI.
      pose proof (tevents q i' (E (EPushRet m0 c0)) [] (t_log (g_q s)) G) as EV.
      assert (t_log i' = E (EPushRet m0 c0) :: t_log (g_q s)) as EL.
      { unfold tpstep in EI. rewrite EPP in EI. injection EI as <-. reflexivity. }
      specialize (EV ltac:(eapply TS; [exact h_reach|]; apply TP; exact EI) EL). cbn in EV. destruct EV as [?|[? _]]; auto.
    + destruct (t_wbuf (g_q s)); try discriminate H. injection H as <-. split; [exact A|]. intros m' c' X. cbn in X. injection X as <- <-. left; reflexivity.
    + injection H as <-. split; [|intros m' c' X; discriminate]. intros m' c' [X|X].
      * injection X as <- <-. destruct (B m c eq_refl) as [?|[?|[? ?]]]; auto. right; right. split; [assumption|]. apply ended_cons; assumption.
      * destruct (A m' c' X) as [?|[?|[? ?]]]; auto. right; right. split; [assumption|]. apply ended_cons; assumption.
  - unfold gdexec in H. destruct (g_ds s); try discriminate H; try (injection H as <-; apply K2; reflexivity).
    + destruct (g_dfl s); try discriminate H. injection H as <-; apply K2; reflexivity.
    + destruct (g_wk s); try discriminate H. destruct (t_rbuf (g_q s)); try discriminate H. destruct (g_wfl s); try discriminate H.
      injection H as <-. apply (K1 HDestroyed); try reflexivity; discriminate.
  - apply K2; destruct H; reflexivity.
  - split.
    + intros m' c' [X|X]; [discriminate|]. destruct (A m' c' X) as [?|[?|[? ?]]]; auto. right; right. split; [assumption|]. apply ended_cons; assumption.
    + intros m' c' X. discriminate.
  - apply (K1 HDestroy); try reflexivity; discriminate.
Qed.
Lemma ghandler_refused q s m c : good_queue q -> rb_size q <= 1073741824 -> greach q s -> In (HPushRet m c) (g_log s) ->
  c = 0 \/ c = 5 \/ (c = 2 /\ ended (g_log s)).
Proof.
  intros G SM H. assert (grefused_ok s) as [A _]; [|apply A].
  induction H; [|eapply grefused_step; eauto]. split; [intros ? ? []|intros ? ? X; discriminate].
Qed.

Lemma ghandler_progress q s : good_queue q -> rb_size q <= 1073741824 -> greach q s ->
  g_wk s = WDone \/ gasleep s \/ (exists c s', gwexec c s = Ret (Some s')) \/ (g_wk s = W66 /\ t_rbuf (g_q s) <> [] /\ exists s', gflush s s').
Proof.
  intros G SM H. pose proof (greach_inv q G s SM H) as HI.
  pose proof (wexec_inv q G SM) as WE.
  destruct (g_wk s) eqn:EW; auto.
  - right; right; left. exists {| c_mem := None; c_ret := 0 |}. unfold gwexec. rewrite EW. cbn. eauto.
  - right; right; left. exists {| c_mem := None; c_ret := 0 |}. unfold gwexec. rewrite EW. eauto.
  - destruct (Z_lt_dec 0 (g_sem s)).
    + right; right. destruct (t_rbuf (g_q s)) as [|x b] eqn:EB.
      * left. exists {| c_mem := None; c_ret := 0 |}. unfold gwexec. rewrite EW, EB. destruct (0 <? g_sem s) eqn:EE; [eauto|lia].
      * right. split; [reflexivity|]. split; [discriminate|]. eexists. eapply GFR. exact EB.
    + right; left. split; [exact EW|]. pose proof (h_sem q s HI). lia.
  - right; right; left. exists {| c_mem := None; c_ret := 0 |}. unfold gwexec. rewrite EW. eauto.
  - right; right; left. exists {| c_mem := None; c_ret := 0 |}. unfold gwexec. rewrite EW. eauto.
  - right; right; left. exists {| c_mem := None; c_ret := 0 |}. unfold gwexec. rewrite EW.
    destruct (tno_fault q (g_q s) G (h_reach q s HI)) as (_ & (i1 & HS) & _). rewrite HS. cbn [bind]. eauto.
  - right; right; left. exists {| c_mem := None; c_ret := 0 |}. destruct (WE {| c_mem := None; c_ret := 0 |} s HI) as (o & E & _).
    unfold gwexec in *. rewrite EW in *. destruct (roundup_power2 size); cbn [bind c_mem] in *; try discriminate. eauto.
  - right; right; left. exists {| c_mem := None; c_ret := 0 |}. unfold gwexec. rewrite EW. eauto.
  - right; right; left. exists {| c_mem := None; c_ret := 0 |}. unfold gwexec. rewrite EW. eauto.
  - right; right; left. exists {| c_mem := None; c_ret := 0 |}. unfold gwexec. rewrite EW. eauto.
Qed.
Lemma ghandler_join q s : good_queue q -> rb_size q <= 1073741824 -> greach q s -> g_ds s = D177 -> ~ gasleep s.
Proof.
  intros G SM H E [A B]. pose proof (greach_inv q G s SM H) as HI.
  destruct (h_dp q s HI) as [_ [K|[[K|K]|K]]]; try congruence; try lia. unfold dp; rewrite E; reflexivity.
Qed.
