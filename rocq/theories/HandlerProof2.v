From Verif Require Import CBase SeqLib RingBuffer2Model RingBuffer2Proof MsgQueueModel MsgQueueSpec MsgQueueProof
  SpscModel SpscSpec SpscProof SpscProof2 SpscProof3 SpscProof4 HandlerModel HandlerSpec HandlerProof.

Definition pcon (s : hst) : Prop :=
  match pr s with
  | H149 m => pin (pp (inner s)) m
  | H145 m => pp (inner s) = PIdle /\ msz m
  | _ => pp (inner s) = PIdle
  end.
Definition ccon (s : hst) : Prop :=
  match wk s with WPop => cpop (cp (inner s)) (buf s) (bsize s) | _ => cp (inner s) = CIdle end.
Definition bcon (s : hst) : Prop :=
  match wk s with
  | W51 | WDone => True
  | W78 n => bsize s = zlen (buf s) /\ 0 <= bsize s <= 1073741824 /\ 0 < n /\ n + 4 <= csize (inner s)
  | W64 last => bsize s = zlen (buf s) /\ 0 <= bsize s <= 1073741824 /\ (last = 0 \/ last = 6)
  | _ => bsize s = zlen (buf s) /\ 0 <= bsize s <= 1073741824
  end.
Definition tok (s : hst) : Z :=
  match wk s with
  | W68 | W73 | W78 _ => 1
  | W64 last => if (last =? MQ_SUCCESS) || (last =? MQ_EMPTY) then 0 else 1
  | WPop => 1 - zlen (cpend (cp (inner s)))
  | _ => 0
  end.
Definition post (s : hst) : Z := match pr s with H152 _ => 1 | _ => 0 end.
Definition dp (s : hst) : Z := match ds s with D177 | DDone => 1 | _ => 0 end.
Definition npop (s : hst) : Z := zlen (pops (log (inner s))) + zlen (cpend (cp (inner s))).
Definition nacc (s : hst) : Z := zlen (accepted (log (inner s))).
Definition over (s : hst) : Prop := wk s = W103 \/ wk s = WDone.
Definition t' (p : list Z * list Z * Z) : list Z := snd (fst p).
Definition cbpend (s : hst) : list (list Z) := match wk s with W96 => [buf s] | _ => [] end.
Definition hflight (s : hst) : list (list Z) :=
  match pr s with H145 m => [m] | HRet m c => if c =? 0 then [] else [m] | _ => [] end.
Definition hpend (s : hst) : list (list Z) :=
  match pr s with H152 m => [m] | HRet m c => if c =? 0 then [m] else [] | _ => [] end.

Record hinv (q : rb Z) (s : hst) : Prop := {
  h_reach : reach q (inner s);
  h_p : pcon s;
  h_c : ccon s;
  h_b : bcon s;
  h_sem : 0 <= sem s;
  h_cnt : over s \/ nacc s - npop s + dp s = sem s + tok s + post s;
  h_dp : dp s = 1 -> flag s = true /\ (wk s = W68 \/ over s \/ 1 <= sem s);
  h_call : wk s = WPop -> cpend (cp (inner s)) = [] ->
           zlen (pops (log (inner s))) < zlen (accepted (at_ccall (log (inner s))));
  h_cbs : callbacks (hlog s) ++ cbpend s = map t' (pops (log (inner s)));
  h_sent : hsent (hlog s) = sent (log (inner s)) ++ hflight s;
  h_acc : accepted (log (inner s)) = haccepted (hlog s) ++ hpend s;
  h_end : (flag s = true \/ over s) -> ended (hlog s);
  h_des : ds s <> DNone -> In HDestroy (hlog s);
  h_fl : ds s = D176 -> flag s = true }.

Lemma ended_cons e l : ended l -> ended (e :: l).
Proof.
  intros [(r & A & B)|[A|A]]; [left; exists r; split; [right; exact A|exact B]|right; left; right; exact A|right; right; right; exact A].
Qed.

Ltac z0 := change (zlen (@nil (list Z * list Z * Z))) with 0 in *.
Section Step.
Variable q : rb Z.
Hypothesis good : good_queue q.
Hypothesis small : rb_size q <= 1073741824.

Lemma cpend_len c : 0 <= zlen (cpend c) <= 1.
Proof. destruct c; unfold cpend; try destruct (_ =? 0); unfold zlen; cbn [length]; lia. Qed.

(** what a pop inside the worker can return *)
Lemma pop_answer s t cap code t1 sz1 : hinv q s -> wk s = WPop -> cp (inner s) = CRet t cap code t1 sz1 ->
  cap = zlen t -> 
  (code = 0 /\ zlen t1 = zlen t) \/
  (code = 6 /\ t1 = t /\ 0 < sz1 /\ sz1 + 4 <= csize (inner s)).
Proof.
  intros H EW EC Hcap. destruct H.
  destruct (reach_inv q (inner s) good h_reach0) as (D & R & I).
  destruct (cstep_inv (inner s) D R I) as (s1 & D1 & R1 & HS & I1).
  unfold cstep in HS. rewrite EC in HS. injection HS as <-.
  pose proof (spsc_events q (set_cp (emit (inner s) (EPopRet t cap code t1 sz1)) CIdle) (EPopRet t cap code t1 sz1) [] (log (inner s)) good) as EV.
  specialize (EV ltac:(eapply RS; [exact h_reach0|]; apply SC; unfold cstep; rewrite EC; reflexivity) eq_refl).
  cbn [event_ok] in EV. destruct EV as [(-> & _ & m & _ & Hm & ->)|[(-> & _ & -> & HN)|(-> & -> & m & HN & Hm & ->)]].
  - left. split; [reflexivity|]. pose proof (zlen_nonneg m). rewrite zlen_app, zlen_zdrop by lia. lia.
  - exfalso. unfold nothing_missed in HN. specialize (h_call0 EW). rewrite EC in h_call0. cbn in h_call0.
    specialize (h_call0 eq_refl). unfold zlen in h_call0. lia.
  - right. split; [reflexivity|]. split; [reflexivity|]. pose proof (zlen_nonneg t).
    split; [lia|]. destruct I. unfold cinv in i_c. rewrite EC in i_c.
    destruct i_c as [[K _]|[[K _]|(_ & _ & m1 & rest & HR & _ & Hsz)]]; try discriminate. rewrite Hsz.
    unfold tin, tout in i_ord. rewrite HR, used_app in i_ord. rewrite EC in i_ord. cbn [used coff] in i_ord.
    pose proof (used_nonneg rest). pose proof (poff_range (pp (inner s))). lia.
Qed.

Lemma wexec_inv c s : hinv q s -> exists o, wexec c s = Ret o /\ (forall s', o = Some s' -> hinv q s').
Proof.
  intro HI. pose proof HI as H. destruct H. pose proof (zlen_nonneg (pops (log (inner s)))) as Z1.
  pose proof (cpend_len (cp (inner s))) as CL.
  unfold wexec. unfold ccon in h_c0. unfold bcon in h_b0.
  assert (0 <= post s /\ 0 <= dp s <= 1) as [PS DS] by (unfold post, dp; destruct (pr s), (ds s); lia).
  destruct (wk s) eqn:EW.
  - (* W51 *)
    destruct (c_mem c) as [b|].
    + destruct (zlen b =? 4096) eqn:E; [|eexists; split; [reflexivity|discriminate]].
      eexists; split; [reflexivity|]. intros s' K. injection K as <-.
      constructor; unfold pcon, ccon, bcon, tok, post, dp, npop, nacc, over, cbpend, hflight, hpend in *; cbn in *;
        rewrite ?EW in *; auto; try (intuition congruence).
      * split; [lia|split; [lia|left; reflexivity]].
    + eexists; split; [reflexivity|]. intros s' K. injection K as <-.
      constructor; unfold pcon, ccon, bcon, tok, post, dp, npop, nacc, over, cbpend, hflight, hpend in *; cbn in *;
        rewrite ?EW in *; auto; try (intuition congruence).
      intros _. right; left; left; reflexivity.
  - (* W64 *)
    eexists; split; [reflexivity|]. intros s' K. injection K as <-. destruct h_b0 as (B1 & B2 & B3).
    constructor; unfold pcon, ccon, bcon, tok, post, dp, npop, nacc, over, cbpend, hflight, hpend in *; cbn in *;
      rewrite ?EW in *; auto; unfold MQ_SUCCESS, MQ_EMPTY in *; destruct B3 as [-> | ->]; cbn in *; auto; try (intuition congruence).
  - (* W66 *)
    destruct (0 <? sem s) eqn:E; [|eexists; split; [reflexivity|discriminate]].
    eexists; split; [reflexivity|]. intros s' K. injection K as <-.
    constructor; unfold pcon, ccon, bcon, tok, post, dp, npop, nacc, over, cbpend, hflight, hpend in *; cbn in *;
        rewrite ?EW in *; auto; try (intuition congruence).
    + lia.
    + destruct h_cnt0 as [[K|K]|K]; try discriminate. right. lia.
  - (* W68 *)
    eexists; split; [reflexivity|]. intros s' K. injection K as <-.
    destruct (flag s) eqn:EF.
    + constructor; unfold pcon, ccon, bcon, tok, post, dp, npop, nacc, over, cbpend, hflight, hpend in *; cbn in *;
        rewrite ?EW in *; auto; try (intuition congruence).
    + constructor; unfold pcon, ccon, bcon, tok, post, dp, npop, nacc, over, cbpend, hflight, hpend in *; cbn in *;
        rewrite ?EW in *; auto; try (intuition congruence).
  - (* W73 *)
    eexists; split; [reflexivity|]. intros s' K. injection K as <-. destruct h_b0 as (B1 & B2).
    rewrite u32_small by (unfold two32; lia).
    constructor; unfold pcon, ccon, bcon, tok, post, dp, npop, nacc, over, cbpend, hflight, hpend in *; cbn [set_wk set_inner wk inner buf bsize sem flag pr ds hlog set_cp emit log cp pp csize accepted pops sent cpend at_ccall] in *;
        rewrite ?EW in *; auto; try (intuition congruence).
    + apply (RS q (inner s)); [exact h_reach0|]. apply SPop; [exact h_c0|unfold two32; lia|lia].
    + cbn. auto.
    + destruct h_cnt0 as [[K|K]|K]; try discriminate. right. rewrite h_c0 in K. cbn [cpend] in K. z0. lia.
    + intros _ _. destruct h_cnt0 as [[K|K]|K]; try discriminate. rewrite h_c0 in K. cbn [cpend] in K.
      change (zlen (@nil (list Z * list Z * Z))) with 0 in K.
      assert (dp s = 1 -> 1 <= sem s) as DS1.
      { intro X. destruct (h_dp0 X) as [F [Y|[[Y|Y]|Y]]]; try discriminate. exact Y. }
      unfold dp in DS1. destruct (ds s); try lia; specialize (DS1 eq_refl); lia.
  - (* WPop *)
    destruct (spsc_no_fault q (inner s) good h_reach0) as (_ & i1 & HS). rewrite HS. cbn [bind].
    destruct h_b0 as (B1 & B2).
    destruct (cstep_cpop (inner s) i1 (buf s) (bsize s) HS h_c0) as [Epp Hcase].
    assert (reach q i1) as R1 by (apply (RS q (inner s)); [exact h_reach0|apply SC; exact HS]).
    destruct Hcase as [(code & t1 & sz1 & EC & EL & EI)|(NC & EL & HC1)].
    + rewrite EC. pose proof (pop_answer s (buf s) (bsize s) code t1 sz1 HI EW EC B1) as PA.
      rewrite EC in h_call0.
      destruct PA as [[-> HL]|(-> & -> & Hz & Hz2)]; cbn [cpend] in *; unfold MQ_SUCCESS, MQ_BUF_NOT_ENOUGH.
      * change (0 =? 0) with true in *. cbn iota in *. eexists; split; [reflexivity|]. intros s' K. injection K as <-.
        constructor; unfold pcon, ccon, bcon, tok, post, dp, npop, nacc, over, cbpend, hflight, hpend in *; cbn [set_wk set_buf set_inner wk inner buf bsize sem flag pr ds hlog] in *;
          rewrite ?EW, ?EL, ?EI, ?Epp in *; auto; try (intuition congruence).
        -- destruct h_cnt0 as [[K|K]|K]; try discriminate. right. rewrite EC in K. cbn [accepted pops cpend] in *. change (0 =? 0) with true in *. cbn iota in *.
           rewrite zlen_app. z0. change (zlen [(buf s, t1, bsize s)]) with 1 in *. lia.
        -- cbn [pops]. change (0 =? 0) with true. cbn iota. rewrite map_app. rewrite app_nil_r in h_cbs0. rewrite h_cbs0. reflexivity.
      * change (6 =? 0) with false in *. change (6 =? 6) with true in *. cbn iota in *. eexists; split; [reflexivity|]. intros s' K. injection K as <-.
        assert (csize i1 = csize (inner s)) as ES.
        { rewrite (reach_size q i1 R1), (reach_size q (inner s) h_reach0). reflexivity. }
        constructor; unfold pcon, ccon, bcon, tok, post, dp, npop, nacc, over, cbpend, hflight, hpend in *; cbn [set_wk set_buf set_inner wk inner buf bsize sem flag pr ds hlog] in *;
          rewrite ?EW, ?EL, ?EI, ?Epp, ?ES in *; auto; try (intuition congruence).
        -- destruct h_cnt0 as [[K|K]|K]; try discriminate. right. rewrite EC in K. cbn [accepted pops cpend] in *. change (6 =? 0) with false in *. cbn iota in *. z0. lia.
    + assert (exists o, Ret (Some (match cp (inner s) with
          | CRet _ _ code t' sz' => let s' := set_buf (set_inner s i1) t' (bsize s) in
              if code =? MQ_SUCCESS then set_wk s' W96
              else if code =? MQ_BUF_NOT_ENOUGH then set_wk s' (W78 sz') else set_wk s' (W64 code)
          | _ => set_inner s i1 end)) = Ret o /\ o = Some (set_inner s i1)) as (o & HO & Ho).
      { destruct (cp (inner s)) as [| |t0 cap0|j|j n start i tgt|t0 cap0 c0 t0' sz'|n] eqn:EC; try (eexists; split; reflexivity).
        exfalso. cbn in h_c0. destruct h_c0 as [-> ->]. apply (NC c0 t0' sz'). reflexivity. }
      exists o. split; [exact HO|]. intros s' K. rewrite Ho in K. injection K as <-.
      pose proof (cpend_len (cp i1)) as CL1.
      destruct (reach_inv q i1 good R1) as (D1 & R1' & I1). destruct (reach_inv q (inner s) good h_reach0) as (D0 & R0' & I0).
      assert (zlen (cpend (cp (inner s))) = 0) as C0.
      { destruct (cp (inner s)) as [| | | | |t0 cap0 c0 t0' sz'|]; try reflexivity. exfalso. cbn in h_c0. destruct h_c0 as [-> ->]. apply (NC c0 t0' sz'). reflexivity. }
      assert (cpend (cp (inner s)) = []) as C0' by (destruct (cpend (cp (inner s))); [reflexivity|unfold zlen in C0; cbn in C0; lia]).
      constructor; unfold pcon, ccon, bcon, tok, post, dp, npop, nacc, over, cbpend, hflight, hpend in *; cbn [set_wk set_buf set_inner wk inner buf bsize sem flag pr ds hlog] in *;
          rewrite ?EW, ?EL, ?Epp in *; auto; try (intuition congruence).
      destruct h_cnt0 as [[K|K]|K]; try discriminate. right. lia.
  - (* W78 *)
    destruct h_b0 as (B1 & B2 & B3 & B4). rewrite (reach_size q (inner s) h_reach0) in B4.
    destruct (roundup_power2_ok size) as (r & HR & Hr); [lia|]. rewrite HR. cbn [bind].
    destruct (c_mem c) as [b|].
    + destruct (zlen b =? r) eqn:E; [|eexists; split; [reflexivity|discriminate]].
      eexists; split; [reflexivity|]. intros s' K. injection K as <-.
      constructor; unfold pcon, ccon, bcon, tok, post, dp, npop, nacc, over, cbpend, hflight, hpend in *; cbn in *;
        rewrite ?EW in *; auto; try (intuition congruence).
      * split; [lia|split; [lia|right; reflexivity]].
    + eexists; split; [reflexivity|]. intros s' K. injection K as <-.
      constructor; unfold pcon, ccon, bcon, tok, post, dp, npop, nacc, over, cbpend, hflight, hpend in *; cbn in *;
        rewrite ?EW in *; auto; try (intuition congruence).
      intros _. right; left; left; reflexivity.
  - (* W96 *)
    eexists; split; [reflexivity|]. intros s' K. injection K as <-.
    constructor; unfold pcon, ccon, bcon, tok, post, dp, npop, nacc, over, cbpend, hflight, hpend in *; cbn in *;
        rewrite ?EW in *; auto; try (intuition congruence).
    + rewrite app_nil_r. exact h_cbs0.
    + intros [K|[K|K]]; try discriminate. apply ended_cons. auto.
  - (* WCb *)
    eexists; split; [reflexivity|]. intros s' K. injection K as <-.
    destruct (c_ret c =? 0) eqn:E.
    + constructor; unfold pcon, ccon, bcon, tok, post, dp, npop, nacc, over, cbpend, hflight, hpend in *; cbn in *;
        rewrite ?EW in *; auto; try (intuition congruence).
      * intros [K|[K|K]]; try discriminate. apply ended_cons. auto.
    + constructor; unfold pcon, ccon, bcon, tok, post, dp, npop, nacc, over, cbpend, hflight, hpend in *; cbn in *;
        rewrite ?EW in *; auto; try (intuition congruence).
      intros _. left. exists (c_ret c). split; [left; reflexivity|lia].
  - (* W103 *)
    eexists; split; [reflexivity|]. intros s' K. injection K as <-.
    constructor; unfold pcon, ccon, bcon, tok, post, dp, npop, nacc, over, cbpend, hflight, hpend in *; cbn in *;
        rewrite ?EW in *; auto; try (intuition congruence).
  - eexists; split; [reflexivity|discriminate].
Qed.
End Step.
