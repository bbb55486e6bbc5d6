From Verif Require Import CBase SeqLib RingBuffer2Model RingBuffer2Proof MsgQueueModel MsgQueueSpec MsgQueueProof SpscModel SpscSpec SpscProof SpscProof2 SpscProof3 SpscProof4.
From Verif Require Import HandlerModel HandlerSpec HandlerProof HandlerProof2 HandlerProof3 MqTsoModel MqTsoSpec MqTsoProof MqTsoProof2 MqTsoProof3 HdTsoModel HdTsoSpec.

(** ** steps of the queue *)
Lemma tcstep_cpop s s' t cap : tcstep s = Ret s' -> cpop (t_cp s) t cap ->
  t_pp s' = t_pp s /\ t_wbuf s' = t_wbuf s /\
  ((exists code t' sz', t_cp s = CRet t cap code t' sz' /\ t_log s' = E (EPopRet t cap code t' sz') :: t_log s /\ t_cp s' = CIdle) \/
   ((forall code t' sz', t_cp s <> CRet t cap code t' sz') /\ t_log s' = t_log s /\ cpop (t_cp s') t cap)).
Proof.
  intros H HC. unfold tcstep in H. destruct (t_cp s) as [| |t0 cap0|j|j n start i tgt|t0 cap0 c t' sz'|n] eqn:EC; cbn in HC; try contradiction.
  - destruct HC as [-> ->]. injection H as <-. split; [reflexivity|]. split; [reflexivity|]. right. split; [discriminate|]. split; [reflexivity|].
    cbn [t_cp tset_cp]. destruct (_ <? _); cbn; auto.
  - destruct ((jreq j =? 0) || (filled s =? 0)).
    + destruct (cfinish _ _ _) eqn:EF; cbn [bind] in H; try discriminate; injection H as <-. split; [reflexivity|]. split; [reflexivity|].
      right. split; [discriminate|]. split; [reflexivity|]. cbn [t_cp tset_cp]. eapply cfinish_cpop; eauto.
    + injection H as <-. split; [reflexivity|]. split; [reflexivity|]. right. split; [discriminate|]. split; [reflexivity|]. exact HC.
  - destruct (i <? n).
    + destruct (mload _ _); cbn [bind] in H; try discriminate.
      destruct (mstore _ _ _); cbn [bind] in H; try discriminate; injection H as <-. split; [reflexivity|]. split; [reflexivity|].
      right. split; [discriminate|]. split; [reflexivity|]. exact HC.
    + destruct (jpeek j); destruct (cfinish _ _ _) eqn:EF; cbn [bind] in H; try discriminate; injection H as <-;
        (split; [reflexivity|]; split; [reflexivity|]; right; split; [discriminate|]; split; [reflexivity|]; cbn [t_cp tset_cp r_store tset_rbuf]; eapply cfinish_cpop; eauto).
  - destruct HC as [-> ->]. injection H as <-. split; [reflexivity|]. split; [reflexivity|]. left. exists c, t', sz'. auto.
Qed.
(** stores are on their way only inside a push that will succeed, or between it and its barrier *)
Definition wb_ok (p : ppc) (b : list wr) : Prop := match p with P44 _ => b = [] | PRet _ c => c <> 0 -> b = [] | _ => True end.
Lemma tpstep_pin s s' m : tpstep s = Ret s' -> pin (t_pp s) m ->
  t_cp s' = t_cp s /\ t_rbuf s' = t_rbuf s /\ (wb_ok (t_pp s) (t_wbuf s) -> wb_ok (t_pp s') (t_wbuf s')) /\
  ((exists c, t_pp s = PRet m c /\ t_log s' = E (EPushRet m c) :: t_log s /\ t_pp s' = PIdle /\ t_wbuf s' = t_wbuf s) \/
   ((forall c, t_pp s <> PRet m c) /\ t_log s' = t_log s /\ pin (t_pp s') m)).
Proof.
  intros H HP. unfold tpstep in H. destruct (t_pp s) as [|m0|hd m0|hd m0 n start i|m0 c] eqn:EP; cbn in HP; try contradiction; subst m0.
  - injection H as <-. split; [reflexivity|]. split; [reflexivity|]. split; [cbn; destruct (_ <? _); cbn; auto|]. right. split; [discriminate|]. split; [reflexivity|]. cbn. destruct (_ <? _); reflexivity.
  - destruct ((zlen (psrc hd m) =? 0) || (room s =? 0)).
    + unfold pfinish in H. destruct hd; destruct (assert_abort _); cbn [bind] in H; try discriminate; injection H as <-;
        (split; [reflexivity|]; split; [reflexivity|]; split; [cbn; auto; intros _ X; contradiction (X eq_refl)|]; right; split; [discriminate|]; split; reflexivity).
    + injection H as <-. split; [reflexivity|]. split; [reflexivity|]. split; [cbn; auto|]. right. split; [discriminate|]. split; reflexivity.
  - destruct (i <? n).
    + destruct (mload _ _); cbn [bind] in H; try discriminate; injection H as <-.
      split; [reflexivity|]. split; [reflexivity|]. split; [cbn; auto|]. right. split; [discriminate|]. split; reflexivity.
    + unfold pfinish in H. destruct hd; destruct (assert_abort _); cbn [bind] in H; try discriminate; injection H as <-;
        (split; [reflexivity|]; split; [reflexivity|]; split; [cbn; auto; intros _ X; contradiction (X eq_refl)|]; right; split; [discriminate|]; split; reflexivity).
  - injection H as <-. split; [reflexivity|]. split; [reflexivity|]. split; [cbn; auto|]. left. exists c. auto.
Qed.
Lemma commit_keeps s e s' : commit s e = Ret s' -> t_cp s' = t_cp s /\ t_pp s' = t_pp s /\ t_log s' = t_log s /\ t_wbuf s' = t_wbuf s /\ t_rbuf s' = t_rbuf s /\ t_size s' = t_size s.
Proof. unfold commit. intro H. destruct e as [a b|x]; [destruct (mstore _ _ _); cbn [bind] in H; try discriminate|]; injection H as <-; cbn; auto 10. Qed.

Definition pcon (s : gst) : Prop :=
  match g_pr s with
  | H149 m => pin (t_pp (g_q s)) m
  | H145 m => t_pp (g_q s) = PIdle /\ msz m
  | _ => t_pp (g_q s) = PIdle
  end.
Definition ccon (s : gst) : Prop :=
  match g_wk s with WPop => cpop (t_cp (g_q s)) (g_buf s) (g_bsize s) | _ => t_cp (g_q s) = CIdle end.
Definition bcon (s : gst) : Prop :=
  match g_wk s with
  | W51 | WDone => True
  | W78 n => g_bsize s = zlen (g_buf s) /\ 0 <= g_bsize s <= 1073741824 /\ 0 < n /\ n + 4 <= t_size (g_q s)
  | W64 last => g_bsize s = zlen (g_buf s) /\ 0 <= g_bsize s <= 1073741824 /\ (last = 0 \/ last = 6)
  | _ => g_bsize s = zlen (g_buf s) /\ 0 <= g_bsize s <= 1073741824
  end.
Definition tok (s : gst) : Z :=
  match g_wk s with
  | W68 | W73 | W78 _ => 1
  | W64 last => if (last =? MQ_SUCCESS) || (last =? MQ_EMPTY) then 0 else 1
  | WPop => 1 - zlen (cpend (t_cp (g_q s)))
  | _ => 0
  end.
Definition post (s : gst) : Z := match g_pr s with H152 _ => 1 | _ => 0 end.
Definition dp (s : gst) : Z := match g_ds s with D177 | DDone => 1 | _ => 0 end.
Definition npop (s : gst) : Z := zlen (pops (plain (t_log (g_q s)))) + zlen (cpend (t_cp (g_q s))).
Definition nacc (s : gst) : Z := zlen (accepted (plain (t_log (g_q s)))).
Definition over (s : gst) : Prop := g_wk s = W103 \/ g_wk s = WDone.
Definition cbpend (s : gst) : list (list Z) := match g_wk s with W96 => [g_buf s] | _ => [] end.
Definition hflight (s : gst) : list (list Z) :=
  match g_pr s with H145 m => [m] | HRet m c => if c =? 0 then [] else [m] | _ => [] end.
Definition hpend (s : gst) : list (list Z) :=
  match g_pr s with H152 m => [m] | HRet m c => if c =? 0 then [m] else [] | _ => [] end.

Definition npub (s : gst) : Z := zlen (accepted (plain (wsync_at (t_log (g_q s))))).
Definition unsynced (s : gst) : Prop := match g_pr s with H149 _ => wb_ok (t_pp (g_q s)) (t_wbuf (g_q s)) | H152 _ => True | _ => t_wbuf (g_q s) = [] end.
Record ginv (q : rb Z) (s : gst) : Prop := {
  h_reach : treach false q (g_q s);
  h_p : pcon s;
  h_c : ccon s;
  h_b : bcon s;
  h_sem : 0 <= g_sem s;
  h_cnt : over s \/ nacc s - npop s + dp s = g_sem s + tok s + post s;
  h_pub : npub s = nacc s - post s;
  h_dp : dp s = 1 -> g_flag s = true /\ (g_wk s = W68 \/ over s \/ 1 <= g_sem s);
  h_call : g_wk s = WPop -> cpend (t_cp (g_q s)) = [] ->
           zlen (pops (plain (t_log (g_q s)))) < zlen (accepted (plain (wsync_at (ccall_at (t_log (g_q s))))));
  h_cbs : callbacks (g_log s) ++ cbpend s = map t' (pops (plain (t_log (g_q s))));
  h_sent : hsent (g_log s) = sent (plain (t_log (g_q s))) ++ hflight s;
  h_acc : accepted (plain (t_log (g_q s))) = haccepted (g_log s) ++ hpend s;
  h_end : (g_flag s = true \/ g_wfl s = true \/ g_dfl s = true \/ over s) -> ended (g_log s);
  h_des : g_ds s <> DNone -> In HDestroy (g_log s) /\ g_pr s = HIdle;
  h_fl : g_ds s = D176 -> g_flag s = true \/ g_dfl s = true;
  h_df : g_dfl s = true -> g_ds s = D176;
  h_wf : g_wfl s = true -> g_wk s = WDone;
  h_wb : unsynced s }.

Lemma plain_E e l : plain (E e :: l) = e :: plain l. Proof. reflexivity. Qed.
Lemma plain_W l : plain (WSync :: l) = plain l. Proof. reflexivity. Qed.
Lemma plain_R l : plain (RSync :: l) = plain l. Proof. reflexivity. Qed.
Ltac z0 := change (zlen (@nil (list Z * list Z * Z))) with 0 in *.
Ltac ug := unfold pcon, ccon, bcon, tok, post, dp, npop, nacc, npub, unsynced, over, cbpend, hflight, hpend in *.
Ltac cg := cbn [gset_wk gset_buf gset_q gset_pr gset_sem gset_flag gset_wfl gset_dfl gset_ds gemit g_q g_sem g_flag g_wfl g_dfl g_buf g_bsize g_wk g_pr g_ds g_log
  tset_cp tset_pp temit t_log t_pp t_cp t_size t_wbuf t_rbuf wsync_at ccall_at hsent haccepted callbacks] in *; rewrite ?plain_E, ?plain_W, ?plain_R in *; cbn [accepted pops sent] in *.
Ltac fin := auto; try (intuition congruence);
  try (match goal with H : g_ds ?s <> DNone -> _ |- g_ds ?s <> DNone -> _ => let K := fresh in intro K; destruct (H K); split; [right; assumption|assumption] end).
Section Step.
Variable q : rb Z.
Hypothesis good : good_queue q.
Hypothesis small : rb_size q <= 1073741824.

Lemma cpend_len c : 0 <= zlen (cpend c) <= 1.
Proof. destruct c; unfold cpend; try destruct (_ =? 0); unfold zlen; cbn [length]; lia. Qed.

(** what a pop inside the worker can return *)
Lemma pop_answer s t cap code t1 sz1 : ginv q s -> g_wk s = WPop -> t_cp (g_q s) = CRet t cap code t1 sz1 ->
  cap = zlen t ->
  (code = 0 /\ zlen t1 = zlen t) \/
  (code = 6 /\ t1 = t /\ 0 < sz1 /\ sz1 + 4 <= t_size (g_q s)).
Proof.
  intros H EW EC Hcap. destruct H.
  destruct (treach_inv q (g_q s) good h_reach0) as (D & R & p & k & I).
  assert (HS : tcstep (g_q s) = Ret (tset_cp (temit (g_q s) (E (EPopRet t cap code t1 sz1))) CIdle)) by (unfold tcstep; rewrite EC; reflexivity).
  pose proof (tevents q (tset_cp (temit (g_q s) (E (EPopRet t cap code t1 sz1))) CIdle) (E (EPopRet t cap code t1 sz1)) [] (t_log (g_q s)) good) as EV.
  specialize (EV ltac:(eapply TS; [exact h_reach0|]; apply TC; exact HS) eq_refl).
  cbn [tev_ok] in EV. destruct EV as [(-> & _ & m & _ & Hm & ->)|[(-> & _ & -> & HN)|(-> & -> & m & HN & Hm & ->)]].
  - left. split; [reflexivity|]. pose proof (zlen_nonneg m). rewrite zlen_app, zlen_zdrop by lia. lia.
  - exfalso. unfold none_missed in HN. specialize (h_call0 EW). rewrite EC in h_call0. cbn in h_call0.
    specialize (h_call0 eq_refl). unfold zlen in h_call0. lia.
  - right. split; [reflexivity|]. split; [reflexivity|]. pose proof (zlen_nonneg t).
    split; [lia|]. destruct I. unfold tcinv in v_c. rewrite EC in v_c.
    destruct v_c as [[K _]|[[K _]|(_ & _ & m1 & rest & HR & Hc & Hsz)]]; try discriminate.
    unfold xin, xout in v_rng. rewrite HR, used_app, EC in v_rng. cbn [used coff] in v_rng. rewrite Hsz.
    pose proof (used_nonneg rest). pose proof (poff_range (t_pp (g_q s))). lia.
Qed.

Lemma wexec_inv c s : ginv q s -> exists o, gwexec c s = Ret o /\ (forall s', o = Some s' -> ginv q s').
Proof.
  intro HI. pose proof HI as H. destruct H. pose proof (zlen_nonneg (pops (plain (t_log (g_q s))))) as Z1.
  pose proof (cpend_len (t_cp (g_q s))) as CL.
  unfold gwexec. unfold ccon in h_c0. unfold bcon in h_b0.
  assert (0 <= post s /\ 0 <= dp s <= 1) as [PS DS] by (unfold post, dp; destruct (g_pr s), (g_ds s); lia).
  destruct (g_wk s) eqn:EW.
  - (* W51 *)
    destruct (c_mem c) as [b|].
    + destruct (zlen b =? 4096) eqn:E; [|eexists; split; [reflexivity|discriminate]].
      eexists; split; [reflexivity|]. intros s' K. injection K as <-.
      constructor; ug; cg;
        rewrite ?EW in *; fin.
      * split; [lia|split; [lia|left; reflexivity]].
    + eexists; split; [reflexivity|]. intros s' K. injection K as <-.
      constructor; ug; cg;
        rewrite ?EW in *; fin.
      intros _. right; left; left; reflexivity.
  - (* W64 *)
    eexists; split; [reflexivity|]. intros s' K. injection K as <-. destruct h_b0 as (B1 & B2 & B3).
    constructor; ug; cg;
      rewrite ?EW in *; auto; unfold MQ_SUCCESS, MQ_EMPTY in *; destruct B3 as [-> | ->]; cbn in *; fin.
  - (* W66 *)
    destruct (t_rbuf (g_q s)) eqn:ERB; [|eexists; split; [reflexivity|discriminate]].
    destruct (0 <? g_sem s) eqn:EE; [|eexists; split; [reflexivity|discriminate]].
    eexists; split; [reflexivity|]. intros s' K. injection K as <-.
    assert (treach false q (temit (g_q s) RSync)) as R1 by (apply (TS false q (g_q s)); [exact h_reach0|apply TRSync; auto]).
    constructor; ug; cg; rewrite ?EW, ?EP1, ?EP2 in *; fin.
    + lia.
    + destruct h_cnt0 as [[K|K]|K]; try discriminate. right. lia.
  - (* W68 *)
    assert (g_wfl s = false) as WF by (destruct (g_wfl s); [specialize (h_wf0 eq_refl); discriminate|reflexivity]).
    rewrite WF, orb_false_r. eexists; split; [reflexivity|]. intros s' K. injection K as <-.
    destruct (g_flag s) eqn:EF.
    + constructor; ug; cg; rewrite ?EW in *; fin.
    + constructor; ug; cg; rewrite ?EW in *; fin.
  - (* W73 *)
    eexists; split; [reflexivity|]. intros s' K. injection K as <-. destruct h_b0 as (B1 & B2).
    rewrite u32_small by (unfold two32; lia).
    assert (treach false q (tset_cp (temit (g_q s) (E (EPop (g_buf s) (g_bsize s)))) (C78 (g_buf s) (g_bsize s)))) as R1.
    { apply (TS false q (g_q s)); [exact h_reach0|]. apply TPop; [exact h_c0|unfold two32; lia|lia]. }
    constructor; ug; cg; rewrite ?EW in *; fin.
    + cbn. auto.
    + destruct h_cnt0 as [[K|K]|K]; try discriminate. right. rewrite h_c0 in K. cbn [cpend] in K |- *. z0. lia.
    + intros _ _. destruct h_cnt0 as [[K|K]|K]; try discriminate. rewrite h_c0 in K. cbn [cpend] in K. z0.
      assert (dp s = 1 -> 1 <= g_sem s) as DS1.
      { intro X. destruct (h_dp0 X) as [F [Y|[[Y|Y]|Y]]]; try discriminate. exact Y. }
      unfold dp in DS1. destruct (g_ds s); try lia; specialize (DS1 eq_refl); lia.
  - (* WPop *)
    destruct (tno_fault q (g_q s) good h_reach0) as (_ & (i1 & HS) & _). rewrite HS. cbn [bind].
    destruct h_b0 as (B1 & B2).
    destruct (tcstep_cpop (g_q s) i1 (g_buf s) (g_bsize s) HS h_c0) as (Epp & Ewb & Hcase).
    assert (treach false q i1) as R1 by (apply (TS false q (g_q s)); [exact h_reach0|apply TC; exact HS]).
    destruct Hcase as [(code & t1 & sz1 & EC & EL & EI)|(NC & EL & HC1)].
    + rewrite EC. pose proof (pop_answer s (g_buf s) (g_bsize s) code t1 sz1 HI EW EC B1) as PA.
      rewrite EC in h_call0.
      destruct PA as [[-> HL]|(-> & -> & Hz & Hz2)]; cbn [cpend] in *; unfold MQ_SUCCESS, MQ_BUF_NOT_ENOUGH.
      * change (0 =? 0) with true in *. cbn iota in *. eexists; split; [reflexivity|]. intros s' K. injection K as <-.
        constructor; ug; cg; rewrite ?EW, ?EL, ?EI, ?Epp, ?Ewb in *; cg; fin.
        -- destruct h_cnt0 as [[K|K]|K]; try discriminate. right. rewrite EC in K. cbn [cpend] in *. change (0 =? 0) with true in *. cbn iota in *.
           rewrite zlen_app. z0. change (zlen [(g_buf s, t1, g_bsize s)]) with 1 in *. lia.
        -- change (0 =? 0) with true. cbn iota. rewrite map_app. rewrite app_nil_r in h_cbs0. rewrite h_cbs0. reflexivity.
      * change (6 =? 0) with false in *. change (6 =? 6) with true in *. cbn iota in *. eexists; split; [reflexivity|]. intros s' K. injection K as <-.
        assert (t_size i1 = t_size (g_q s)) as ES.
        { rewrite (treach_size false q i1 R1), (treach_size false q (g_q s) h_reach0). reflexivity. }
        constructor; ug; cg; rewrite ?EW, ?EL, ?EI, ?Epp, ?Ewb, ?ES in *; cg; fin.
        -- destruct h_cnt0 as [[K|K]|K]; try discriminate. right. rewrite EC in K. cbn [cpend] in *. change (6 =? 0) with false in *. cbn iota in *. z0. lia.
    + assert (exists o, Ret (Some (match t_cp (g_q s) with
          | CRet _ _ code t' sz' => let s' := gset_buf (gset_q s i1) t' (g_bsize s) in
              if code =? MQ_SUCCESS then gset_wk s' W96
              else if code =? MQ_BUF_NOT_ENOUGH then gset_wk s' (W78 sz') else gset_wk s' (W64 code)
          | _ => gset_q s i1 end)) = Ret o /\ o = Some (gset_q s i1)) as (o & HO & Ho).
      { destruct (t_cp (g_q s)) as [| |t0 cap0|j|j n start i tgt|t0 cap0 c0 t0' sz'|n] eqn:EC; try (eexists; split; reflexivity).
        exfalso. cbn in h_c0. destruct h_c0 as [-> ->]. apply (NC c0 t0' sz'). reflexivity. }
      exists o. split; [exact HO|]. intros s' K. rewrite Ho in K. injection K as <-.
      pose proof (cpend_len (t_cp i1)) as CL1.
      assert (zlen (cpend (t_cp (g_q s))) = 0) as C0.
      { destruct (t_cp (g_q s)) as [| | | | |t0 cap0 c0 t0' sz'|]; try reflexivity. exfalso. cbn in h_c0. destruct h_c0 as [-> ->]. apply (NC c0 t0' sz'). reflexivity. }
      assert (cpend (t_cp (g_q s)) = []) as C0' by (destruct (cpend (t_cp (g_q s))); [reflexivity|unfold zlen in C0; cbn in C0; lia]).
      constructor; ug; cg; rewrite ?EW, ?EL, ?Epp, ?Ewb in *; fin.
      destruct h_cnt0 as [[K|K]|K]; try discriminate. right. lia.
  - (* W78 *)
    destruct h_b0 as (B1 & B2 & B3 & B4). rewrite (treach_size false q (g_q s) h_reach0) in B4.
    destruct (roundup_power2_ok size) as (r & HR & Hr); [lia|]. rewrite HR. cbn [bind].
    destruct (c_mem c) as [b|].
    + destruct (zlen b =? r) eqn:E; [|eexists; split; [reflexivity|discriminate]].
      eexists; split; [reflexivity|]. intros s' K. injection K as <-.
      constructor; ug; cg;
        rewrite ?EW in *; fin.
      * split; [lia|split; [lia|right; reflexivity]].
    + eexists; split; [reflexivity|]. intros s' K. injection K as <-.
      constructor; ug; cg;
        rewrite ?EW in *; fin.
      intros _. right; left; left; reflexivity.
  - (* W96 *)
    eexists; split; [reflexivity|]. intros s' K. injection K as <-.
    constructor; ug; cg;
        rewrite ?EW in *; fin.
    + rewrite app_nil_r. exact h_cbs0.
    + intro K. apply ended_cons, h_end0. intuition congruence.
  - (* WCb *)
    eexists; split; [reflexivity|]. intros s' K. injection K as <-.
    destruct (c_ret c =? 0) eqn:E.
    + constructor; ug; cg;
        rewrite ?EW in *; fin.
      * intro K. apply ended_cons, h_end0. intuition congruence.
    + constructor; ug; cg;
        rewrite ?EW in *; fin.
      intros _. left. exists (c_ret c). split; [left; reflexivity|lia].
  - (* W103 *)
    eexists; split; [reflexivity|]. intros s' K. injection K as <-.
    constructor; ug; cg;
        rewrite ?EW in *; fin.
  - eexists; split; [reflexivity|discriminate].
Qed.
End Step.
