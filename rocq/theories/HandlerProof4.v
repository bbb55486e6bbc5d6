From Verif Require Import CBase SeqLib RingBuffer2Model RingBuffer2Proof MsgQueueModel MsgQueueSpec MsgQueueProof
  SpscModel SpscSpec SpscProof SpscProof2 SpscProof3 SpscProof4 HandlerModel HandlerSpec HandlerProof HandlerProof2 HandlerProof3.

(** the worker's own steps between two callbacks are bounded, whatever the other threads do *)
Definition fits (s : hst) : Prop :=
  exists m, nth_error (accepted (log (inner s))) (length (pops (log (inner s)))) = Some m /\ zlen m <= bsize s.
Definition B0 : Z := 1073741837.
Definition rk (s : hst) (K : Z) : Prop :=
  match wk s with
  | W51 => 2 * B0 + 13 <= K
  | W64 last => 2 * B0 + 12 <= K \/ (last = 6 /\ fits s /\ B0 + 6 <= K)
  | W66 => 2 * B0 + 11 <= K
  | W68 => 2 * B0 + 10 <= K \/ (fits s /\ B0 + 5 <= K)
  | W73 => 2 * B0 + 9 <= K \/ (fits s /\ B0 + 4 <= K)
  | WPop => cwork (cp (inner s)) + B0 + 8 <= K \/ (fits s /\ cwork (cp (inner s)) + 3 <= K)
  | W78 n => B0 + 7 <= K /\ exists m, nth_error (accepted (log (inner s))) (length (pops (log (inner s)))) = Some m /\ zlen m = n
  | W96 => 2 <= K
  | WCb => 2 * B0 + 13 <= K
  | W103 => 1 <= K
  | WDone => 0 <= K
  end.

Lemma acc_at_ccall l : (length (accepted (at_ccall l)) <= length (accepted l))%nat.
Proof.
  induction l as [|e l IH]; [cbn; lia|]. destruct e; cbn [at_ccall accepted]; try lia.
  destruct (_ =? 0); [rewrite app_length; cbn|]; lia.
Qed.
Lemma acc_next l m : prefix (accepted l) (sent l) -> next_msg l m -> (length (pops l) < length (accepted l))%nat ->
  nth_error (accepted l) (length (pops l)) = Some m.
Proof.
  intros [c E] N L. unfold next_msg in N. rewrite E, nth_error_app1 in N by exact L. exact N.
Qed.
Section Bound.
Variable q : rb Z.
Hypothesis good : good_queue q.
Hypothesis small : rb_size q <= 1073741824.

Lemma cstep_acc s s' : cstep s = Ret s' -> accepted (log s') = accepted (log s).
Proof.
  unfold cstep. intro H.
  destruct (cp s) as [| |t cap|j|j n start i tgt|t cap c t' sz'|n]; try (injection H as <-; reflexivity).
  - destruct (_ || _); [|injection H as <-; reflexivity]. destruct (cfinish _ _ _); cbn [bind] in H; try discriminate; injection H as <-; reflexivity.
  - destruct (_ <? _).
    + destruct (mload _ _); cbn [bind] in H; try discriminate.
      destruct (mstore _ _ _); cbn [bind] in H; try discriminate. injection H as <-; reflexivity.
    + destruct (jpeek j); destruct (cfinish _ _ _); cbn [bind] in H; try discriminate; injection H as <-; reflexivity.
Qed.

Lemma wexec_rk c s s' K : hinv q s -> rk s K -> wexec c s = Ret (Some s') -> callbacks (hlog s') = callbacks (hlog s) ->
  rk s' (K - 1).
Proof.
  intros HI HK HS HC. pose proof HI as H. destruct H. unfold bcon in h_b. unfold ccon in h_c. unfold wexec in HS. unfold rk in HK.
  destruct (wk s) eqn:EW.
  - destruct (c_mem c) as [b|].
    + destruct (_ =? _); [|discriminate]. injection HS as <-. unfold rk. cbn. left. lia.
    + injection HS as <-. unfold rk; cbn. unfold B0 in *; lia.
  - injection HS as <-. destruct h_b as (_ & _ & [-> | ->]); unfold rk; cbn; unfold MQ_SUCCESS, MQ_EMPTY; cbn.
    + destruct HK as [HK|[HK _]]; [lia|discriminate].
    + destruct HK as [HK|(_ & F & HK)]; [left; lia|right; split; [exact F|lia]].
  - destruct (0 <? sem s); [|discriminate]. injection HS as <-. unfold rk; cbn. left; lia.
  - injection HS as <-. destruct (flag s); unfold rk; cbn; [unfold B0 in *; lia|].
    destruct HK as [HK|[F HK]]; [left; lia|right; split; [exact F|lia]].
  - injection HS as <-. unfold rk; cbn [set_wk set_inner set_cp emit wk inner cp cwork log].
    destruct h_b as (B1 & B2). rewrite u32_small by (unfold two32; lia).
    destruct HK as [HK|[F HK]]; [left; unfold B0 in *; lia|right; split; [exact F|unfold B0 in *; lia]].
  - destruct h_b as (B1 & B2).
    destruct (cstep (inner s)) as [i1| | |] eqn:EI; cbn [bind] in HS; try discriminate.
    destruct (cstep_cpop (inner s) i1 (buf s) (bsize s) EI h_c) as [_ Hcase].
    destruct (reach_inv q (inner s) good h_reach) as (D0 & R0 & I0).
    assert (cp (inner s) <> CIdle) as NI by (intro X; rewrite X in h_c; destruct h_c).
    pose proof (cstep_work (inner s) i1 D0 R0 I0 NI EI) as CW.
    pose proof (cstep_acc (inner s) i1 EI) as CA.
    pose proof (cwork_nonneg (inner s) D0 R0 I0) as CN.
    assert (reach q i1) as R1 by (apply (RS q (inner s)); [exact h_reach|apply SC; exact EI]).
    destruct Hcase as [(code & t1 & sz1 & EC & EL & EIdle)|(NC & EL & HC1)].
    + rewrite EC in HS. pose proof (pop_answer q good s (buf s) (bsize s) code t1 sz1 HI EW EC B1) as PA.
      pose proof (spsc_events q i1 (EPopRet (buf s) (bsize s) code t1 sz1) [] (log (inner s)) good R1 EL) as EV.
      destruct (spsc_fifo q (inner s) good h_reach) as [PX _].
      destruct PA as [[-> HL]|(-> & -> & Hz & Hz2)]; cbn in HS; injection HS as <-; unfold rk; cbn.
      * rewrite EC in HK. cbn in HK. unfold B0 in HK. lia.
      * cbn in EV. destruct EV as [(EV & _)|[(EV & _)|(_ & _ & m & HN & Hm & Hs)]]; try discriminate.
        rewrite EC in h_call. cbn in h_call. specialize (h_call eq_refl eq_refl). unfold zlen in h_call.
        pose proof (acc_at_ccall (log (inner s))) as AL.
        assert (nth_error (accepted (log (inner s))) (length (pops (log (inner s)))) = Some m) as NE by (apply acc_next; auto; lia).
        rewrite CA. assert (pops (log i1) = pops (log (inner s))) as EP by (rewrite EL; reflexivity). rewrite EP.
        rewrite EC in HK. cbn in HK.
        destruct HK as [HK|[(m' & F & Fm) HK]]; [|exfalso; rewrite NE in F; injection F as <-; lia].
        split; [lia|]. exists m. split; [exact NE|congruence].
    + assert (s' = set_inner s i1) as ->.
      { destruct (cp (inner s)) as [| |t0 cap0|j|j n start i tgt|t0 cap0 c0 t0' sz'|n] eqn:EC; try (injection HS as <-; reflexivity).
        exfalso. cbn in h_c. destruct h_c as [-> ->]. apply (NC c0 t0' sz'). reflexivity. }
      unfold rk. cbn [set_inner wk inner]. rewrite EW.
      destruct HK as [HK|[F HK]]; [left; lia|right; split; [|lia]].
      unfold fits in *. cbn [set_inner inner bsize]. rewrite EL. exact F.
  - destruct h_b as (B1 & B2 & B3 & B4). rewrite (reach_size q (inner s) h_reach) in B4.
    destruct (roundup_power2_ok size) as (r & HR & Hr); [lia|]. rewrite HR in HS. cbn [bind] in HS.
    destruct HK as [HK (m & NE & Hm)].
    destruct (c_mem c) as [b|].
    + destruct (zlen b =? r); [|discriminate]. injection HS as <-. unfold rk; cbn. right. split; [reflexivity|]. split; [|lia].
      exists m. cbn. split; [exact NE|lia].
    + injection HS as <-. unfold rk; cbn. unfold B0 in *; lia.
  - exfalso. injection HS as <-. cbn in HC. apply (f_equal (@length _)) in HC. rewrite app_length in HC. cbn in HC. lia.
  - injection HS as <-. unfold rk; destruct (_ =? 0); cbn; [left; lia|unfold B0 in *; lia].
  - injection HS as <-. unfold rk; cbn. lia.
  - discriminate.
Qed.

Lemma others_rk s s' K : hinv q s -> others s s' -> rk s K -> rk s' K.
Proof.
  intros HI HO HK.
  assert (wk s' = wk s /\ cp (inner s') = cp (inner s) /\ bsize s' = bsize s /\
    pops (log (inner s')) = pops (log (inner s)) /\ exists x, accepted (log (inner s')) = accepted (log (inner s)) ++ x) as (E1 & E2 & E3 & E4 & x & E5).
  { destruct HI. destruct HO as [s s' H|s s' H|s m P D M|s D P].
    - unfold pexec in H. destruct (pr s) eqn:EP; try discriminate.
      + destruct (flag s); injection H as <-; cbn; repeat split; auto; exists []; rewrite app_nil_r; reflexivity.
      + destruct (pstep (inner s)) as [i'| | |] eqn:EI; cbn [bind] in H; try discriminate.
        unfold pcon in h_p. rewrite EP in h_p.
        pose proof (pstep_pin (inner s) i' m EI h_p) as PP.
        assert (inner s' = i' /\ wk s' = wk s /\ bsize s' = bsize s) as (X1 & X2 & X3).
        { destruct (pp (inner s)) ; try destruct (_ =? _); injection H as <-; cbn; auto. }
        rewrite X1, X2, X3. destruct PP as [EC [(code & EX & EL & _)|(_ & EL & _)]]; rewrite ?EL, ?EC; repeat split; auto.
        * cbn [accepted]. destruct (_ =? 0); [eexists; reflexivity|exists []; rewrite app_nil_r; reflexivity].
        * exists []. rewrite app_nil_r; reflexivity.
      + injection H as <-; cbn; repeat split; auto; exists []; rewrite app_nil_r; reflexivity.
      + injection H as <-; cbn; repeat split; auto; exists []; rewrite app_nil_r; reflexivity.
    - unfold dexec in H. destruct (ds s); try discriminate; try (injection H as <-; cbn; repeat split; auto; exists []; rewrite app_nil_r; reflexivity).
      destruct (wk s) eqn:EW; try discriminate. injection H as <-; cbn; repeat split; auto; exists []; rewrite app_nil_r; reflexivity.
    - cbn; repeat split; auto; exists []; rewrite app_nil_r; reflexivity.
    - cbn; repeat split; auto; exists []; rewrite app_nil_r; reflexivity. }
  assert (forall m, nth_error (accepted (log (inner s))) (length (pops (log (inner s)))) = Some m ->
      nth_error (accepted (log (inner s'))) (length (pops (log (inner s')))) = Some m) as NX.
  { intros m N. rewrite E4, E5. rewrite nth_error_app1; [exact N|]. apply nth_error_Some. congruence. }
  assert (fits s -> fits s') as FX.
  { intros (m & N & L). exists m. split; [auto|lia]. }
  unfold rk in *. rewrite E1, E2. destruct (wk s); auto; try (intuition; fail).
  destruct HK as [HK (m & N & L)]. split; [exact HK|]. exists m. auto.
Qed.

Lemma others_hstep s s' : others s s' -> hstep s s'.
Proof. intros []; [apply HSP|apply HSD|apply HSCall|apply HSDestroy]; auto. Qed.

Lemma rk_nonneg s K : hinv q s -> rk s K -> 0 <= K.
Proof.
  intros HI. destruct HI. destruct (reach_inv q (inner s) good h_reach) as (D0 & R0 & I0).
  pose proof (cwork_nonneg (inner s) D0 R0 I0). unfold rk, B0. destruct (wk s); lia.
Qed.

Lemma wrun_bound n s s' : wrun n s s' -> forall K, hinv q s -> rk s K -> Z.of_nat n <= K.
Proof.
  induction 1 as [s|n c s s' s'' H HC _ IH|n s s' s'' H _ IH]; intros K HI HK.
  - pose proof (rk_nonneg s K HI HK). lia.
  - assert (hinv q s') as HI' by (eapply hstep_inv; eauto; eapply HSW; eauto).
    specialize (IH (K - 1) HI' (wexec_rk c s s' K HI HK H HC)). lia.
  - assert (hinv q s') as HI' by (eapply hstep_inv; eauto; apply others_hstep; eauto).
    apply (IH K HI'). exact (others_rk s s' K HI H HK).
Qed.

Lemma cwork_pop s t cap D R : inv s D R -> cpop (cp s) t cap -> 0 <= cap -> cwork (cp s) <= cap + 13.
Proof.
  intros I HC HP. destruct I. unfold cinv in i_c.
  destruct (cp s) as [| |t0 c0|[|t0 c0 a|t0 c0 x|t0 c0 x]|[|t0 c0 a|t0 c0 x|t0 c0 x] n start i tgt|t0 c0 c t' sz'|n];
    cbn in HC; try contradiction; destruct HC as [-> ->]; cbn [cwork]; try lia.
  - destruct i_c as (m1 & r & _ & H). lia.
  - destruct i_c as (_ & -> & _ & H & _). cbn [jreq] in *. unfold hdr_size in *. lia.
  - destruct i_c as (_ & -> & _ & H & _). cbn [jreq] in *. unfold hdr_size in *. lia.
  - destruct i_c as ((m1 & r & _ & H) & -> & _ & K & _). cbn [jreq] in *. lia.
Qed.
Definition TOP : Z := 2147483687.
Definition jn (s : hst) : Prop := match wk s with
  | W78 n => exists m, nth_error (accepted (log (inner s))) (length (pops (log (inner s)))) = Some m /\ zlen m = n
  | _ => True end.
Lemma rk_top s : hinv q s -> jn s -> rk s TOP.
Proof.
  intros HI J. pose proof HI as H. destruct H. unfold rk, jn, B0, TOP in *. unfold bcon in h_b. unfold ccon in h_c.
  destruct (reach_inv q (inner s) good h_reach) as (D0 & R0 & I0).
  destruct (wk s) eqn:EW; try lia.
  - left. destruct h_b as (B1 & B2). pose proof (cwork_pop (inner s) (buf s) (bsize s) D0 R0 I0 h_c). lia.
  - split; [lia|exact J].
Qed.
Lemma hreach_jn s : hreach q s -> jn s.
Proof.
  induction 1 as [|s s' H IH HS]; [exact I|].
  pose proof (hreach_inv q good s small H) as HI. pose proof (rk_top s HI IH) as RT.
  assert (others s s' \/ exists c, wexec c s = Ret (Some s')) as [O|[c HW]].
  { destruct HS; [right; eauto|left; apply OP; auto|left; apply OD; auto|left; apply OCall; auto|left; apply ODestroy; auto]. }
  - pose proof (others_rk s s' TOP HI O RT) as R2. unfold rk in R2. unfold jn. destruct (wk s'); auto. apply R2.
  - unfold jn. destruct (wk s') eqn:EW; auto.
    assert (callbacks (hlog s') = callbacks (hlog s)) as HC.
    { unfold wexec in HW. destruct (wk s) eqn:EW0; try discriminate.
      - destruct (c_mem c); [destruct (_ =? _); [|discriminate]|]; injection HW as <-; cbn in EW; discriminate.
      - injection HW as <-. cbn in EW. destruct (_ || _); discriminate.
      - destruct (_ <? _); [|discriminate]; injection HW as <-; discriminate.
      - injection HW as <-. cbn in EW. destruct (flag s); discriminate.
      - injection HW as <-. discriminate.
      - destruct (cstep (inner s)); cbn [bind] in HW; try discriminate. injection HW as <-.
        destruct (cp (inner s)); try reflexivity. destruct (_ =? _); [reflexivity|]. destruct (_ =? _); reflexivity.
      - destruct (roundup_power2 size0); cbn [bind] in HW; try discriminate.
        destruct (c_mem c); [destruct (_ =? _); [|discriminate]|]; injection HW as <-; cbn in EW; discriminate.
      - injection HW as <-. discriminate.
      - injection HW as <-. cbn in EW. destruct (_ =? _); discriminate.
      - injection HW as <-. discriminate. }
    pose proof (wexec_rk c s s' TOP HI RT HW HC) as R2. unfold rk in R2. rewrite EW in R2. apply R2.
Qed.
Lemma handler_busy_bound s n s' : hreach q s -> wrun n s s' -> Z.of_nat n <= TOP.
Proof.
  intros H W. pose proof (hreach_inv q good s small H) as HI. eapply wrun_bound; eauto. apply rk_top; auto using hreach_jn.
Qed.

(** the worker never touches anything after destroy has returned *)
Lemma done_inv s : hreach q s -> (ds s = DDone -> wk s = WDone) /\ (In HDestroyed (hlog s) -> ds s = DDone).
Proof.
  intros H. induction H as [|s s' H [IH1 IH2] HS]; [split; [discriminate|intros []]|].
  destruct HS as [s c s' HW|s s' HP|s s' HD|s m P D M|s D P].
  - assert (ds s' = ds s /\ (In HDestroyed (hlog s') -> In HDestroyed (hlog s))) as [E1 E2].
    { unfold wexec in HW. destruct (wk s) eqn:EW0; try discriminate.
      - destruct (c_mem c); [destruct (_ =? _); [|discriminate]|]; injection HW as <-; cbn; split; auto. intros [X|X]; [discriminate|auto].
      - injection HW as <-. auto.
      - destruct (_ <? _); [|discriminate]; injection HW as <-; auto.
      - injection HW as <-. auto.
      - injection HW as <-. auto.
      - destruct (cstep (inner s)); cbn [bind] in HW; try discriminate. injection HW as <-.
        destruct (cp (inner s)); auto. destruct (_ =? _); auto. destruct (_ =? _); auto.
      - destruct (roundup_power2 size); cbn [bind] in HW; try discriminate.
        destruct (c_mem c); [destruct (_ =? _); [|discriminate]|]; injection HW as <-; cbn; split; auto. intros [X|X]; [discriminate|auto].
      - injection HW as <-. cbn. split; auto. intros [X|X]; [discriminate|auto].
      - injection HW as <-. cbn. split; auto. intros [X|X]; [discriminate|auto].
      - injection HW as <-. auto. }
    rewrite E1. split; [|auto]. intro X. exfalso. unfold wexec in HW. rewrite (IH1 X) in HW. discriminate.
  - assert (ds s' = ds s /\ wk s' = wk s /\ (In HDestroyed (hlog s') -> In HDestroyed (hlog s))) as (E1 & E3 & E2).
    { unfold pexec in HP. destruct (pr s); try discriminate.
      - destruct (flag s); injection HP as <-; auto.
      - destruct (pstep (inner s)); cbn [bind] in HP; try discriminate. injection HP as <-.
        destruct (pp (inner s)); auto. destruct (_ =? _); auto.
      - injection HP as <-; auto.
      - injection HP as <-. cbn. split; auto. split; auto. intros [X|X]; [discriminate|auto]. }
    rewrite E1, E3. auto.
  - unfold dexec in HD. destruct (ds s) eqn:ED; try discriminate.
    + injection HD as <-. cbn. split; [discriminate|]. intro X. specialize (IH2 X). discriminate.
    + injection HD as <-. cbn. split; [discriminate|]. intro X. specialize (IH2 X). discriminate.
    + destruct (wk s) eqn:EW; try discriminate. injection HD as <-. cbn. auto.
  - cbn. split; [auto|]. intros [X|X]; [discriminate|auto].
  - cbn. split; [discriminate|]. intros [X|X]; [discriminate|]. specialize (IH2 X). congruence.
Qed.
Lemma destroyed_done s : hreach q s -> In HDestroyed (hlog s) -> wk s = WDone /\ ds s = DDone.
Proof. intros H X. destruct (done_inv s H) as [A B]. auto. Qed.
End Bound.
