From Verif Require Import CBase SeqLib RingBuffer2Model RingBuffer2Proof MsgQueueModel MsgQueueSpec MsgQueueProof SpscModel SpscSpec SpscProof SpscProof2 SpscProof3 SpscProof4.
From Verif Require Import HandlerModel HandlerSpec HandlerProof HandlerProof2 HandlerProof3 HandlerProof4 MqTsoModel MqTsoSpec MqTsoProof MqTsoProof2 MqTsoProof3 HdTsoModel HdTsoSpec HdTsoProof HdTsoProof2.

(** the worker's own steps between two callbacks are bounded, whatever the other threads do *)
Definition fits (s : gst) : Prop :=
  exists m, nth_error (accepted (plain (t_log (g_q s)))) (length (pops (plain (t_log (g_q s))))) = Some m /\ zlen m <= g_bsize s.
Definition rk (s : gst) (K : Z) : Prop :=
  match g_wk s with
  | W51 => 2 * B0 + 13 <= K
  | W64 last => 2 * B0 + 12 <= K \/ (last = 6 /\ fits s /\ B0 + 6 <= K)
  | W66 => 2 * B0 + 11 <= K
  | W68 => 2 * B0 + 10 <= K \/ (fits s /\ B0 + 5 <= K)
  | W73 => 2 * B0 + 9 <= K \/ (fits s /\ B0 + 4 <= K)
  | WPop => cwork (t_cp (g_q s)) + B0 + 8 <= K \/ (fits s /\ cwork (t_cp (g_q s)) + 3 <= K)
  | W78 n => B0 + 7 <= K /\ exists m, nth_error (accepted (plain (t_log (g_q s)))) (length (pops (plain (t_log (g_q s))))) = Some m /\ zlen m = n
  | W96 => 2 <= K
  | WCb => 2 * B0 + 13 <= K
  | W103 => 1 <= K
  | WDone => 0 <= K
  end.

Lemma acc_ccall l : (length (accepted (plain (ccall_at l))) <= length (accepted (plain l)))%nat.
Proof.
  induction l as [|[e| |] l IH]; [cbn; lia| | |]; [|exact IH|exact IH]. rewrite plain_E. destruct e; cbn [ccall_at accepted]; try lia.
  destruct (_ =? 0); [rewrite app_length; cbn|]; lia.
Qed.
Lemma acc_wsync l : (length (accepted (plain (wsync_at l))) <= length (accepted (plain l)))%nat.
Proof.
  induction l as [|[e| |] l IH]; [cbn; lia| | |]; cbn [wsync_at]; rewrite ?plain_E, ?plain_W, ?plain_R; [|lia|exact IH].
  destruct e; cbn [accepted]; try exact IH. destruct (_ =? 0); [rewrite app_length; cbn|]; lia.
Qed.
Section Bound.
Variable q : rb Z.
Hypothesis good : good_queue q.
Hypothesis small : rb_size q <= 1073741824.

Lemma tcstep_acc s s' : tcstep s = Ret s' -> accepted (plain (t_log s')) = accepted (plain (t_log s)).
Proof.
  unfold tcstep. intro H.
  destruct (t_cp s) as [| |t cap|j|j n start i tgt|t cap c t' sz'|n]; try (injection H as <-; reflexivity).
  - destruct (_ || _); [|injection H as <-; reflexivity]. destruct (cfinish _ _ _); cbn [bind] in H; try discriminate; injection H as <-; reflexivity.
  - destruct (_ <? _).
    + destruct (mload _ _); cbn [bind] in H; try discriminate.
      destruct (mstore _ _ _); cbn [bind] in H; try discriminate. injection H as <-; reflexivity.
    + destruct (jpeek j); destruct (cfinish _ _ _); cbn [bind] in H; try discriminate; injection H as <-; reflexivity.
Qed.

Lemma wexec_rk c s s' K : ginv q s -> rk s K -> gwexec c s = Ret (Some s') -> callbacks (g_log s') = callbacks (g_log s) ->
  rk s' (K - 1).
Proof.
  intros HI HK HS HC. pose proof HI as H. destruct H. unfold bcon in h_b. unfold ccon in h_c. unfold gwexec in HS. unfold rk in HK.
  destruct (g_wk s) eqn:EW.
  - destruct (c_mem c) as [b|].
    + destruct (_ =? _); [|discriminate]. injection HS as <-. unfold rk. cbn. left. lia.
    + injection HS as <-. unfold rk; cbn. unfold B0 in *; lia.
  - injection HS as <-. destruct h_b as (_ & _ & [-> | ->]); unfold rk; cbn; unfold MQ_SUCCESS, MQ_EMPTY; cbn.
    + destruct HK as [HK|[HK _]]; [lia|discriminate].
    + destruct HK as [HK|(_ & F & HK)]; [left; lia|right; split; [exact F|lia]].
  - destruct (t_rbuf (g_q s)); [|discriminate HS]. destruct (0 <? g_sem s); [|discriminate HS]. injection HS as <-. unfold rk; cbn. left; lia.
  - injection HS as <-. destruct (g_flag s || g_wfl s); unfold rk; cbn; [unfold B0 in *; lia|].
    destruct HK as [HK|[F HK]]; [left; lia|right; split; [exact F|lia]].
  - injection HS as <-. unfold rk; cbn [gset_wk gset_q tset_cp temit g_wk g_q t_cp cwork t_log].
    destruct h_b as (B1 & B2). rewrite u32_small by (unfold two32; lia).
    destruct HK as [HK|[F HK]]; [left; unfold B0 in *; lia|right; split; [exact F|unfold B0 in *; lia]].
  - destruct h_b as (B1 & B2).
    destruct (tcstep (g_q s)) as [i1| | |] eqn:EI; cbn [bind] in HS; try discriminate.
    destruct (tcstep_cpop (g_q s) i1 (g_buf s) (g_bsize s) EI h_c) as (_ & _ & Hcase).
    destruct (treach_inv q (g_q s) good h_reach) as (D0 & R0 & p0 & k0 & I0).
    assert (t_cp (g_q s) <> CIdle) as NI by (intro X; rewrite X in h_c; destruct h_c).
    pose proof (tcstep_work (g_q s) i1 D0 R0 p0 k0 I0 NI EI) as CW.
    pose proof (tcstep_acc (g_q s) i1 EI) as CA.
    pose proof (tcwork_nonneg (g_q s) D0 R0 p0 k0 I0) as CN.
    assert (treach false q i1) as R1 by (apply (TS false q (g_q s)); [exact h_reach|apply TC; exact EI]).
    destruct Hcase as [(code & t1 & sz1 & EC & EL & EIdle)|(NC & EL & HC1)].
    + rewrite EC in HS. pose proof (pop_answer q good s (g_buf s) (g_bsize s) code t1 sz1 HI EW EC B1) as PA.
      pose proof (tevents q i1 (E (EPopRet (g_buf s) (g_bsize s) code t1 sz1)) [] (t_log (g_q s)) good R1 EL) as EV.
      destruct (tfifo q (g_q s) good h_reach) as [PX _].
      destruct PA as [[-> HL]|(-> & -> & Hz & Hz2)]; cbn in HS; injection HS as <-; unfold rk; cbn.
      * rewrite EC in HK. cbn in HK. unfold B0 in HK. lia.
      * cbn in EV. destruct EV as [(EV & _)|[(EV & _)|(_ & _ & m & HN & Hm & Hs)]]; try discriminate.
        rewrite EC in h_call. cbn in h_call. specialize (h_call eq_refl eq_refl). unfold zlen in h_call.
        pose proof (acc_ccall (t_log (g_q s))) as AL. pose proof (acc_wsync (ccall_at (t_log (g_q s)))) as AL2.
        assert (nth_error (accepted (plain (t_log (g_q s)))) (length (pops (plain (t_log (g_q s))))) = Some m) as NE by (apply acc_next; auto; lia).
        rewrite CA. assert (pops (plain (t_log i1)) = pops (plain (t_log (g_q s)))) as EP by (rewrite EL; reflexivity). rewrite EP.
        rewrite EC in HK. cbn in HK.
        destruct HK as [HK|[(m' & F & Fm) HK]]; [|exfalso; rewrite NE in F; injection F as <-; lia].
        split; [lia|]. exists m. split; [exact NE|congruence].
    + assert (s' = gset_q s i1) as ->.
      { destruct (t_cp (g_q s)) as [| |t0 cap0|j|j n start i tgt|t0 cap0 c0 t0' sz'|n] eqn:EC; try (injection HS as <-; reflexivity).
        exfalso. cbn in h_c. destruct h_c as [-> ->]. apply (NC c0 t0' sz'). reflexivity. }
      unfold rk. cbn [gset_q g_wk g_q]. rewrite EW.
      destruct HK as [HK|[F HK]]; [left; lia|right; split; [|lia]].
      unfold fits in *. cbn [gset_q g_q g_bsize]. rewrite EL. exact F.
  - destruct h_b as (B1 & B2 & B3 & B4). rewrite (treach_size false q (g_q s) h_reach) in B4.
    destruct (roundup_power2_ok size) as (r & HR & Hr); [lia|]. rewrite HR in HS. cbn [bind] in HS.
    destruct HK as [HK (m & NE & Hm)].
    destruct (c_mem c) as [b|].
    + destruct (zlen b =? r); [|discriminate]. injection HS as <-. unfold rk; cbn. right. split; [reflexivity|]. split; [|lia].
      exists m. cbn. split; [exact NE|lia].
    + injection HS as <-. unfold rk; cbn. unfold B0 in *; lia.
  - exfalso. injection HS as <-. cbn in HC. apply (f_equal (@length _)) in HC. rewrite app_length in HC. cbn in HC. lia.
  - injection HS as <-. unfold rk; destruct (_ =? 0); cbn; [left; lia|unfold B0 in *; lia].
  - injection HS as <-. unfold rk; cbn. lia.
  - discriminate.
Qed.

Lemma others_rk s s' K : ginv q s -> gothers s s' -> rk s K -> rk s' K.
Proof.
  intros HI HO HK.
  assert (g_wk s' = g_wk s /\ t_cp (g_q s') = t_cp (g_q s) /\ g_bsize s' = g_bsize s /\
    pops (plain (t_log (g_q s'))) = pops (plain (t_log (g_q s))) /\ exists x, accepted (plain (t_log (g_q s'))) = accepted (plain (t_log (g_q s))) ++ x) as (E1 & E2 & E3 & E4 & x & E5).
  { destruct HI. destruct HO as [s s' H|s s' H|s s' H|s m P D M|s D P].
    - unfold gpexec in H. destruct (g_pr s) eqn:EP; try discriminate.
      + destruct (g_flag s); injection H as <-; cbn; repeat split; auto; exists []; rewrite app_nil_r; reflexivity.
      + destruct (tpstep (g_q s)) as [i'| | |] eqn:EI; cbn [bind] in H; try discriminate.
        unfold pcon in h_p. rewrite EP in h_p.
        destruct (tpstep_pin (g_q s) i' m EI h_p) as (EC & _ & _ & PP).
        assert (g_q s' = i' /\ g_wk s' = g_wk s /\ g_bsize s' = g_bsize s) as (X1 & X2 & X3).
        { destruct (t_pp (g_q s)) ; try destruct (_ =? _); injection H as <-; cbn; auto. }
        rewrite X1, X2, X3. destruct PP as [(code & EX & EL & _)|(_ & EL & _)]; rewrite ?EL, ?EC; repeat split; auto.
        * rewrite plain_E. cbn [accepted]. destruct (_ =? 0); [eexists; reflexivity|exists []; rewrite app_nil_r; reflexivity].
        * exists []. rewrite app_nil_r; reflexivity.
      + destruct (t_wbuf (g_q s)); [|discriminate H]. injection H as <-; cbn; repeat split; auto; exists []; rewrite app_nil_r; reflexivity.
      + injection H as <-; cbn; repeat split; auto; exists []; rewrite app_nil_r; reflexivity.
    - unfold gdexec in H. destruct (g_ds s); try discriminate; try (injection H as <-; cbn; repeat split; auto; exists []; rewrite app_nil_r; reflexivity).
      + destruct (g_dfl s); [discriminate H|]. injection H as <-; cbn; repeat split; auto; exists []; rewrite app_nil_r; reflexivity.
      + destruct (g_wk s) eqn:EW; try discriminate H. destruct (t_rbuf (g_q s)); try discriminate H. destruct (g_wfl s); try discriminate H.
        injection H as <-; cbn; repeat split; auto; exists []; rewrite app_nil_r; reflexivity.
    - destruct H as [s e b i EB H|s y b EB|s EF|s EF]; cbn.
      + destruct (commit_keeps _ _ _ H) as (K1 & K2 & K3 & K4 & K5 & K6). cbn in K1, K3. rewrite K1, K3.
        repeat split; auto; exists []; rewrite app_nil_r; reflexivity.
      + repeat split; auto; exists []; rewrite app_nil_r; reflexivity.
      + repeat split; auto; exists []; rewrite app_nil_r; reflexivity.
      + repeat split; auto; exists []; rewrite app_nil_r; reflexivity.
    - cbn; repeat split; auto; exists []; rewrite app_nil_r; reflexivity.
    - cbn; repeat split; auto; exists []; rewrite app_nil_r; reflexivity. }
  assert (forall m, nth_error (accepted (plain (t_log (g_q s)))) (length (pops (plain (t_log (g_q s))))) = Some m ->
      nth_error (accepted (plain (t_log (g_q s')))) (length (pops (plain (t_log (g_q s'))))) = Some m) as NX.
  { intros m N. rewrite E4, E5. rewrite nth_error_app1; [exact N|]. apply nth_error_Some. congruence. }
  assert (fits s -> fits s') as FX.
  { intros (m & N & L). exists m. split; [auto|lia]. }
  unfold rk in *. rewrite E1, E2. destruct (g_wk s); auto; try (intuition; fail).
  destruct HK as [HK (m & N & L)]. split; [exact HK|]. exists m. auto.
Qed.

Lemma gothers_gstep s s' : gothers s s' -> gstep s s'.
Proof. intros []; [apply GSP|apply GSD|apply GSF|apply GSCall|apply GSDestroy]; auto. Qed.

Lemma rk_nonneg s K : ginv q s -> rk s K -> 0 <= K.
Proof.
  intros HI. destruct HI. destruct (treach_inv q (g_q s) good h_reach) as (D0 & R0 & p0 & k0 & I0).
  pose proof (tcwork_nonneg (g_q s) D0 R0 p0 k0 I0). unfold rk, B0. destruct (g_wk s); lia.
Qed.

Lemma gwrun_bound n s s' : gwrun n s s' -> forall K, ginv q s -> rk s K -> Z.of_nat n <= K.
Proof.
  induction 1 as [s|n c s s' s'' H HC _ IH|n s s' s'' H _ IH]; intros K HI HK.
  - pose proof (rk_nonneg s K HI HK). lia.
  - assert (ginv q s') as HI' by (eapply gstep_inv; eauto; eapply GSW; eauto).
    specialize (IH (K - 1) HI' (wexec_rk c s s' K HI HK H HC)). lia.
  - assert (ginv q s') as HI' by (eapply gstep_inv; eauto; apply gothers_gstep; eauto).
    apply (IH K HI'). exact (others_rk s s' K HI H HK).
Qed.

Lemma tcwork_pop s t cap D R p k : tinv s D R p k -> cpop (t_cp s) t cap -> 0 <= cap -> cwork (t_cp s) <= cap + 13.
Proof.
  intros I HC HP. destruct I. unfold tcinv in v_c.
  destruct (t_cp s) as [| |t0 c0|[|t0 c0 a|t0 c0 x|t0 c0 x]|[|t0 c0 a|t0 c0 x|t0 c0 x] n start i tgt|t0 c0 c t' sz'|n];
    cbn in HC; try contradiction; destruct HC as [-> ->]; cbn [cwork]; try lia.
  - destruct v_c as (m1 & r & _ & H). lia.
  - destruct v_c as (_ & -> & _ & H & _). cbn [jreq] in *. unfold hdr_size in *. lia.
  - destruct v_c as (_ & -> & _ & H & _). cbn [jreq] in *. unfold hdr_size in *. lia.
  - destruct v_c as ((m1 & r & _ & H) & -> & _ & K & _). cbn [jreq] in *. lia.
Qed.
Definition jn (s : gst) : Prop := match g_wk s with
  | W78 n => exists m, nth_error (accepted (plain (t_log (g_q s)))) (length (pops (plain (t_log (g_q s))))) = Some m /\ zlen m = n
  | _ => True end.
Lemma rk_top s : ginv q s -> jn s -> rk s TOP.
Proof.
  intros HI J. pose proof HI as H. destruct H. unfold rk, jn, B0, TOP in *. unfold bcon in h_b. unfold ccon in h_c.
  destruct (treach_inv q (g_q s) good h_reach) as (D0 & R0 & p0 & k0 & I0).
  destruct (g_wk s) eqn:EW; try lia.
  - left. destruct h_b as (B1 & B2). pose proof (tcwork_pop (g_q s) (g_buf s) (g_bsize s) D0 R0 p0 k0 I0 h_c). lia.
  - split; [lia|exact J].
Qed.
Lemma greach_jn s : greach q s -> jn s.
Proof.
  induction 1 as [|s s' H IH HS]; [exact Logic.I|].
  pose proof (greach_inv q good s small H) as HI. pose proof (rk_top s HI IH) as RT.
  assert (gothers s s' \/ exists c, gwexec c s = Ret (Some s')) as [O|[c HW]].
  { destruct HS; [right; eauto|left; apply GOP; auto|left; apply GOD; auto|left; apply GOF; auto|left; apply GOCall; auto|left; apply GODestroy; auto]. }
  - pose proof (others_rk s s' TOP HI O RT) as R2. unfold rk in R2. unfold jn. destruct (g_wk s'); auto. apply R2.
  - unfold jn. destruct (g_wk s') eqn:EW; auto.
    assert (callbacks (g_log s') = callbacks (g_log s)) as HC.
    { unfold gwexec in HW. destruct (g_wk s) eqn:EW0; try discriminate.
      - destruct (c_mem c); [destruct (_ =? _); [|discriminate]|]; injection HW as <-; cbn in EW; discriminate.
      - injection HW as <-. cbn in EW. destruct (_ || _); discriminate.
      - destruct (t_rbuf (g_q s)); [|discriminate HW]. destruct (_ <? _); [|discriminate HW]; injection HW as <-; discriminate.
      - injection HW as <-. cbn in EW. destruct (g_flag s || g_wfl s); discriminate.
      - injection HW as <-. discriminate.
      - destruct (tcstep (g_q s)); cbn [bind] in HW; try discriminate. injection HW as <-.
        destruct (t_cp (g_q s)); try reflexivity. destruct (_ =? _); [reflexivity|]. destruct (_ =? _); reflexivity.
      - destruct (roundup_power2 size0); cbn [bind] in HW; try discriminate.
        destruct (c_mem c); [destruct (_ =? _); [|discriminate]|]; injection HW as <-; cbn in EW; discriminate.
      - injection HW as <-. discriminate.
      - injection HW as <-. cbn in EW. destruct (_ =? _); discriminate.
      - injection HW as <-. discriminate. }
    pose proof (wexec_rk c s s' TOP HI RT HW HC) as R2. unfold rk in R2. rewrite EW in R2. apply R2.
Qed.
Lemma ghandler_busy_bound s n s' : greach q s -> gwrun n s s' -> Z.of_nat n <= TOP.
Proof.
  intros H W. pose proof (greach_inv q good s small H) as HI. eapply gwrun_bound; eauto. apply rk_top; auto using greach_jn.
Qed.

(** when destroy has returned, the worker is over and no store is on its way *)
Lemma done_inv s : greach q s ->
  (g_ds s = DDone -> g_wk s = WDone /\ t_rbuf (g_q s) = [] /\ g_wfl s = false) /\ (In HDestroyed (g_log s) -> g_ds s = DDone).
Proof.
  intros H. induction H as [|s s' H [IH1 IH2] HS]; [split; [discriminate|intros []]|].
  pose proof (greach_inv q good s small H) as HI.
  destruct HS as [s c s' HW|s s' HP|s s' HD|s s' HF|s m P DD M|s DD P].
  - assert (g_ds s' = g_ds s /\ (In HDestroyed (g_log s') -> In HDestroyed (g_log s))) as [E1 E2].
    { unfold gwexec in HW. destruct (g_wk s) eqn:EW0; try discriminate HW.
      - destruct (c_mem c); [destruct (_ =? _); [|discriminate]|]; injection HW as <-; cbn; split; auto. intros [X|X]; [discriminate|auto].
      - injection HW as <-. auto.
      - destruct (t_rbuf (g_q s)); [|discriminate HW]. destruct (_ <? _); [|discriminate]; injection HW as <-; auto.
      - injection HW as <-. auto.
      - injection HW as <-. auto.
      - destruct (tcstep (g_q s)); cbn [bind] in HW; try discriminate. injection HW as <-.
        destruct (t_cp (g_q s)); auto. destruct (_ =? _); auto. destruct (_ =? _); auto.
      - destruct (roundup_power2 size); cbn [bind] in HW; try discriminate.
        destruct (c_mem c); [destruct (_ =? _); [|discriminate]|]; injection HW as <-; cbn; split; auto. intros [X|X]; [discriminate|auto].
      - injection HW as <-. cbn. split; auto. intros [X|X]; [discriminate|auto].
      - injection HW as <-. cbn. split; auto. intros [X|X]; [discriminate|auto].
      - injection HW as <-. auto. }
    rewrite E1. split; [|auto]. intro X. exfalso. unfold gwexec in HW. rewrite (proj1 (IH1 X)) in HW. discriminate.
  - assert (g_ds s' = g_ds s /\ (In HDestroyed (g_log s') -> In HDestroyed (g_log s))) as (E1 & E2).
    { unfold gpexec in HP. destruct (g_pr s); try discriminate.
      - destruct (g_flag s); injection HP as <-; auto.
      - destruct (tpstep (g_q s)); cbn [bind] in HP; try discriminate. injection HP as <-.
        destruct (t_pp (g_q s)); auto. destruct (_ =? _); auto.
      - destruct (t_wbuf (g_q s)); [|discriminate HP]. injection HP as <-; auto.
      - injection HP as <-. cbn. split; auto. intros [X|X]; [discriminate|auto]. }
    rewrite E1. split; [|auto]. intro X. exfalso. unfold gpexec in HP. destruct HI. rewrite (proj2 (h_des ltac:(congruence))) in HP. discriminate.
  - unfold gdexec in HD. destruct (g_ds s) eqn:ED; try discriminate HD.
    + injection HD as <-. cbn. split; [discriminate|]. intro X. specialize (IH2 X). discriminate.
    + destruct (g_dfl s); [discriminate HD|]. injection HD as <-. cbn. split; [discriminate|]. intro X. specialize (IH2 X). discriminate.
    + destruct (g_wk s) eqn:EW; try discriminate HD. destruct (t_rbuf (g_q s)) eqn:ER; try discriminate HD. destruct (g_wfl s) eqn:EF; try discriminate HD.
      injection HD as <-. cbn. auto.
  - destruct HF as [s e b i EB HF|s y b EB|s EF|s EF]; cbn.
    + destruct (commit_keeps _ _ _ HF) as (K1 & K2 & K3 & K4 & K5 & K6). cbn in K5. rewrite K5. auto.
    + split; [|auto]. intro X. destruct (IH1 X) as (_ & Y & _). congruence.
    + split; [|auto]. intro X. destruct (IH1 X) as (_ & _ & Y). congruence.
    + auto.
  - cbn. split; [auto|]. intros [X|X]; [discriminate|auto].
  - cbn. split; [discriminate|]. intros [X|X]; [discriminate|]. specialize (IH2 X). congruence.
Qed.
Lemma gdestroyed_done s : greach q s -> In HDestroyed (g_log s) -> g_wk s = WDone /\ g_ds s = DDone /\ settled s.
Proof.
  intros H X. destruct (done_inv s H) as [A B]. specialize (B X). destruct (A B) as (W & RB & FL).
  pose proof (greach_inv q good s small H) as HI. destruct HI. split; [exact W|]. split; [exact B|].
  destruct (h_des ltac:(congruence)) as [_ P]. unfold settled. unfold unsynced in h_wb. rewrite P in h_wb.
  split; [exact h_wb|]. split; [exact RB|]. split; [exact FL|]. destruct (g_dfl s); [|reflexivity]. specialize (h_df eq_refl). congruence.
Qed.
End Bound.
