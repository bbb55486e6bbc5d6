From Verif Require Import MpliteProof2 MpliteProof6.
From Verif Require Import CBase SeqLib RingBuffer2Model RingBuffer2Proof MsgQueueModel MsgQueueSpec MsgQueueProof
  SpscModel SpscSpec SpscProof SpscProof2 SpscProof3.

Definition good_queue (q : rb Z) : Prop :=
  rb_in q = 0 /\ rb_out q = 0 /\ is_pow2 (rb_size q) /\ rb_size q <= zlen (rb_buf q).

Lemma mq_create_good (malloc : Z -> option (list Z)) n q :
  (forall k b, malloc k = Some b -> zlen b = k) ->
  28 <= n -> (n - 24 <= 1073741824 \/ n - 24 = 2147483648) ->
  mq_create malloc n = Ret (Some q) -> good_queue q.
Proof.
  intros HM Hn HB HC. unfold mq_create, hdr_size, mq_struct_size in HC.
  destruct (n <? 4 + 4) eqn:E; [lia|]. rewrite u64_small' in HC by (unfold two64; lia).
  destruct (malloc (8 + n)) as [b|] eqn:EM; [|discriminate].
  pose proof (HM _ _ EM) as Lb. destruct (zlen b <? 8) eqn:E8; [lia|].
  assert (zlen (zdrop 8 b) = n) as L by (rewrite zlen_zdrop; lia).
  destruct (create_with_mem_spec (zdrop 8 b) ltac:(lia) ltac:(lia)) as (s & P & B & C).
  rewrite L in C. rewrite C in HC. injection HC as <-. unfold good_queue; cbn.
  split; [reflexivity|]. split; [reflexivity|]. split; [exact P|]. rewrite zlen_zdrop by lia. lia.
Qed.

Lemma boot_inv q : good_queue q -> inv (boot q) [] [].
Proof.
  intros (A & B & P & L). pose proof (pow2_bound _ P).
  constructor; cbn [boot csize mem cin cout log pp cp]; auto.
  - constructor.
  - unfold tin, tout; cbn. lia.
  - unfold tin, tout; cbn. intros; lia.
  - exact I.
  - exact I.
  - constructor.
  - exact I.
Qed.

Lemma emit_pp s e p D R : inv s D R -> pp s = PIdle -> e = EPush (match p with P44 m => m | _ => [] end) ->
  (exists m, p = P44 m /\ msz m) -> inv (set_pp (emit s e) p) D R.
Proof.
  intros I E -> (m & -> & Hm). destruct I.
  assert (tin (set_pp (emit s (EPush m)) (P44 m)) D R = tin s D R) as TI.
  { unfold tin; cbn [pp set_pp]. rewrite E. reflexivity. }
  constructor; cbn [csize mem cin cout log pp cp set_pp emit]; rewrite ?TI; auto.
  - intros k Hk. rewrite i_mem by exact Hk. unfold stream. rewrite E. reflexivity.
  - split; [exact Hm|]. cbn [at_pcall log set_pp emit]. rewrite E in i_acc. cbn [ppend] in i_acc.
    rewrite app_nil_r in i_acc. symmetry; exact i_acc.
  - cbn [sent pflight]. rewrite i_sent, E. cbn [pflight]. rewrite app_nil_r. reflexivity.
  - cbn [accepted ppend]. rewrite E in i_acc. exact i_acc.
  - split; [exact I|exact i_ev].
Qed.

Lemma emit_cp s e c D R : inv s D R -> cp s = CIdle ->
  (exists t cap, e = EPop t cap /\ c = C78 t cap /\ 0 <= cap < two32 /\ cap <= zlen t) \/ (e = ENext /\ c = C60) ->
  inv (set_cp (emit s e) c) D R.
Proof.
  intros I E He. destruct I.
  assert (coff c = 0 /\ cpend c = [] /\ pops (e :: log s) = pops (log s) /\ at_pcall (e :: log s) = at_pcall (log s) /\
          sent (e :: log s) = sent (log s) /\ accepted (e :: log s) = accepted (log s) /\
          event_ok (csize s) e (log s)) as (K1 & K2 & K3 & K4 & K5 & K6 & K7).
  { destruct He as [(t & cap & -> & -> & _)|[-> ->]]; repeat split. }
  assert (tout (set_cp (emit s e) c) D = tout s D) as TO.
  { unfold tout; cbn [cp set_cp]. rewrite E, K1. reflexivity. }
  constructor; cbn [csize mem cin cout log pp cp set_cp emit]; rewrite ?TO, ?K5, ?K6; auto.
  - apply (pinv_stable s _ D R); auto. lia.
  - destruct He as [(t & cap & -> & -> & A & B)|[-> ->]]; unfold cinv; cbn; auto.
  - rewrite K2, K3. rewrite E in i_pops. exact i_pops.
  - split; [exact K7|exact i_ev].
Qed.

Lemma step_inv s s' D R : inv s D R -> step s s' -> exists D' R', inv s' D' R'.
Proof.
  intros I H. destruct H as [s s' H|s s' H|s m E Hm|s t cap E Hc Ht|s E].
  - destruct (pstep_inv s D R I) as (s1 & R1 & H1 & I1). rewrite H in H1. injection H1 as <-. eauto.
  - destruct (cstep_inv s D R I) as (s1 & D1 & R1 & H1 & I1). rewrite H in H1. injection H1 as <-. eauto.
  - exists D, R. apply emit_pp; auto. exists m. auto.
  - exists D, R. apply emit_cp; auto. left. exists t, cap. auto.
  - exists D, R. apply emit_cp; auto.
Qed.
Lemma reach_inv q s : good_queue q -> reach q s -> exists D R, inv s D R.
Proof.
  intros G H. induction H as [|s s' _ (D & R & I) HS].
  - exists [], []. apply boot_inv; exact G.
  - eapply step_inv; eauto.
Qed.
Lemma step_size s s' : step s s' -> csize s' = csize s.
Proof.
  intros H. destruct H as [s s' H|s s' H|s m E Hm|s t cap E Hc Ht|s E]; try reflexivity.
  - unfold pstep in H. destruct (pp s) as [|m|hd m|hd m n start i|m c]; try (injection H as <-; reflexivity).
    + destruct ((zlen (psrc hd m) =? 0) || (avail_write s =? 0)).
      * destruct (pfinish hd m 0); cbn [bind] in H; try discriminate; injection H as <-; reflexivity.
      * injection H as <-; reflexivity.
    + destruct (i <? n).
      * destruct (mload (psrc hd m) i); cbn [bind] in H; try discriminate.
        destruct (mstore _ _ _); cbn [bind] in H; try discriminate; injection H as <-; reflexivity.
      * destruct (pfinish hd m n); cbn [bind] in H; try discriminate; injection H as <-; reflexivity.
  - unfold cstep in H. destruct (cp s) as [| |t cap|j|j n start i tgt|t cap c t' sz'|n]; try (injection H as <-; reflexivity).
    + destruct ((jreq j =? 0) || (avail_read s =? 0)).
      * destruct (cfinish _ _ _); cbn [bind] in H; try discriminate; injection H as <-; reflexivity.
      * injection H as <-; reflexivity.
    + destruct (i <? n).
      * destruct (mload _ _); cbn [bind] in H; try discriminate.
        destruct (mstore _ _ _); cbn [bind] in H; try discriminate; injection H as <-; reflexivity.
      * destruct (jpeek j); destruct (cfinish _ _ _); cbn [bind] in H; try discriminate; injection H as <-; reflexivity.
Qed.
Lemma reach_size q s : reach q s -> csize s = rb_size q.
Proof. induction 1; [reflexivity|]. rewrite (step_size _ _ H0). exact IHreach. Qed.

Lemma spsc_no_fault q s : good_queue q -> reach q s ->
  (exists s', pstep s = Ret s') /\ (exists s', cstep s = Ret s').
Proof.
  intros G H. destruct (reach_inv q s G H) as (D & R & I).
  destruct (pstep_inv s D R I) as (s1 & R1 & H1 & _). destruct (cstep_inv s D R I) as (s2 & D2 & R2 & H2 & _). eauto.
Qed.
Lemma spsc_fifo q s : good_queue q -> reach q s ->
  prefix (accepted (log s)) (sent (log s)) /\
  exists D, prefix D (sent (log s)) /\ Forall2 stored (pops (log s)) D.
Proof.
  intros G H. destruct (reach_inv q s G H) as (D & R & []). split.
  - rewrite i_sent, i_acc. exists (ppend (pp s) ++ pflight (pp s)). rewrite app_assoc. reflexivity.
  - apply Forall2_app_inv_l in i_pops as (D1 & D2 & F1 & F2 & ->). exists D1. split; [|exact F1].
    rewrite i_sent, <- !app_assoc. eexists; reflexivity.
Qed.
Lemma spsc_events q s e l2 l : good_queue q -> reach q s -> log s = l2 ++ e :: l -> event_ok (rb_size q) e l.
Proof.
  intros G H E. pose proof (reach_size q s H) as ES. destruct (reach_inv q s G H) as (D & R & []).
  rewrite E in i_ev. rewrite <- ES. clear -i_ev. induction l2 as [|x l2 IH]; cbn in i_ev; [apply i_ev|].
  apply IH, i_ev.
Qed.

(** ** bounded number of own steps *)
Definition pwork (p : ppc) : Z :=
  match p with
  | PIdle => 0
  | P44 m => zlen m + 10
  | P196 true m => zlen m + 9
  | PCopy true m n _ i => zlen m + 4 + (n - i)
  | P196 false m => zlen m + 3
  | PCopy false m n _ i => 2 + (n - i)
  | PRet _ _ => 1
  end.
Definition cwork (p : cpc) : Z :=
  match p with
  | CIdle => 0
  | C60 => 8
  | C78 _ cap => cap + 13
  | C235 JNext => 7
  | CCopy JNext n _ i _ => 2 + (n - i)
  | C235 (JPeek _ cap _) => cap + 12
  | CCopy (JPeek _ cap _) n _ i _ => cap + 6 + (n - i)
  | C235 (JDisc _ cap _) => cap + 5
  | CCopy (JDisc _ cap _) n _ i _ => cap + 4 + (n - i)
  | C235 (JRead _ cap x) => x + 3
  | CCopy (JRead _ cap _) n _ i _ => 2 + (n - i)
  | CRet _ _ _ _ _ => 1
  | CNRet _ => 1
  end.
Lemma pwork_nonneg s D R : inv s D R -> 0 <= pwork (pp s).
Proof.
  intros []. unfold pinv in i_p. destruct (pp s) as [|m|[] m|[] m n start i|m c]; cbn [pwork]; try lia;
    unfold msz in i_p; lia.
Qed.
Lemma pstep_work s s' D R : inv s D R -> pp s <> PIdle -> pstep s = Ret s' -> pwork (pp s') < pwork (pp s).
Proof.
  intros I NE H. pose proof (avail_write_eq s D R I) as AW. destruct I. unfold pinv in i_p. unfold pstep in H.
  destruct (pp s) as [|m|hd m|hd m n start i|m c]; try congruence.
  - injection H as <-. destruct i_p as [Hm _]. unfold msz in Hm. destruct (_ <? _); cbn [pp set_pp pwork]; lia.
  - destruct i_p as [Hm HF]. unfold msz in Hm. rewrite psrc_len, AW in H.
    destruct ((if hd then 4 else zlen m) =? 0) eqn:E1; [destruct hd; lia|].
    destruct (csize s - (tin s D R - tout s D) =? 0) eqn:E2; [destruct hd; lia|]. cbn [orb] in H.
    rewrite take_min_eq in H. injection H as <-. destruct hd; cbn [pp set_pp pwork]; lia.
  - destruct i_p as (Hm & HF & Hn & Hst & Hi & HC). unfold msz in Hm. destruct (i <? n) eqn:E.
    + destruct (mload _ _); cbn [bind] in H; try discriminate.
      destruct (mstore _ _ _); cbn [bind] in H; try discriminate. injection H as <-. destruct hd; cbn [pp set_pp pwork]; lia.
    + unfold pfinish, assert_abort in H. destruct hd.
      * destruct (n =? hdr_size); cbn [bind] in H; try discriminate; injection H as <-; cbn [pp set_pp pwork]; lia.
      * destruct (n =? zlen m); cbn [bind] in H; try discriminate; injection H as <-; cbn [pp set_pp pwork]; lia.
  - injection H as <-. cbn. lia.
Qed.
Lemma cwork_nonneg s D R : inv s D R -> 0 <= cwork (cp s).
Proof.
  intros []. unfold cinv in i_c.
  destruct (cp s) as [| |t cap|[|t cap a|t cap x|t cap x]|[|t cap a|t cap x|t cap x] n start i tgt|t cap c t' sz'|n];
    cbn [cwork]; try lia.
  - destruct i_c as (m1 & r & _ & H). lia.
  - destruct i_c as (m1 & r & _ & H). lia.
  - destruct i_c as (m1 & r & _ & H). pose proof (zlen_nonneg m1). lia.
  - destruct i_c as ((m1 & r & _ & H) & K). lia.
  - destruct i_c as ((m1 & r & _ & H) & K). lia.
Qed.
Lemma cstep_work s s' D R : inv s D R -> cp s <> CIdle -> cstep s = Ret s' -> cwork (cp s') < cwork (cp s).
Proof.
  intros I NE H. pose proof (avail_read_eq s D R I) as AR. destruct I. unfold cinv in i_c. unfold cstep in H.
  destruct (cp s) as [| |t cap|j|j n start i tgt|t cap c t' sz'|n] eqn:EC; try congruence.
  - injection H as <-. destruct (_ <? _); cbn [cp set_cp cwork]; lia.
  - injection H as <-. destruct (_ <? _); cbn [cp set_cp cwork]; lia.
  - destruct i_c as (m1 & rest & HR & HJ).
    assert (msz m1) as Hm1.
    { rewrite HR in i_msz. apply Forall_app in i_msz as [_ F]. inversion F; auto. }
    unfold msz in Hm1.
    assert (0 < jreq j) as Hpos by (destruct j; cbn [jreq]; unfold hdr_size; lia).
    destruct ((jreq j =? 0) || (avail_read s =? 0)) eqn:E.
    + unfold cfinish, assert_abort in H. destruct (0 =? jreq j) eqn:E0; [lia|]. cbn [bind] in H. discriminate.
    + injection H as <-. rewrite take_min_eq. destruct j; cbn [cp set_cp cwork jreq jtgt] in *; unfold hdr_size in *; lia.
  - destruct i_c as (J & Hn & Hst & Hi & HT). destruct J as (m1 & rest & HR & HJ). destruct (i <? n) eqn:E.
    + destruct (mload _ _); cbn [bind] in H; try discriminate.
      destruct (mstore _ _ _); cbn [bind] in H; try discriminate. injection H as <-. destruct j; cbn [cp set_cp cwork]; lia.
    + unfold cfinish, assert_abort in H. destruct (n =? jreq j); [|destruct (jpeek j); discriminate]. cbn [bind] in H.
      destruct j as [|t cap a|t cap x|t cap x]; cbn [jpeek] in H.
      * destruct (le32_dec tgt); cbn [bind] in H; try discriminate. injection H as <-. cbn [cp set_cp cwork]; lia.
      * destruct (le32_dec tgt); cbn [bind] in H; try discriminate.
        destruct (a <? u64 (hdr_size + a0)); [|destruct (a0 >? cap)]; cbn [bind] in H; injection H as <-; cbn [cp set_cp cwork]; lia.
      * cbn [bind] in H. injection H as <-. cbn [cp set_cp cwork]; lia.
      * cbn [bind] in H. injection H as <-. cbn [cp set_cp cwork]; lia.
  - injection H as <-. cbn. lia.
  - injection H as <-. cbn. lia.
Qed.

Lemma prun_bound n s s' : prun n s s' -> forall D R, inv s D R -> Z.of_nat n <= pwork (pp s).
Proof.
  induction 1 as [s|n s s' s'' NE H _ IH|n s s' s'' H E _ IH]; intros D R I.
  - pose proof (pwork_nonneg s D R I). lia.
  - destruct (step_inv s s' D R I (SP s s' H)) as (D1 & R1 & I1). specialize (IH D1 R1 I1).
    pose proof (pstep_work s s' D R I NE H). lia.
  - destruct (step_inv s s' D R I H) as (D1 & R1 & I1). specialize (IH D1 R1 I1). rewrite E in IH. exact IH.
Qed.
Lemma crun_bound n s s' : crun n s s' -> forall D R, inv s D R -> Z.of_nat n <= cwork (cp s).
Proof.
  induction 1 as [s|n s s' s'' NE H _ IH|n s s' s'' H E _ IH]; intros D R I.
  - pose proof (cwork_nonneg s D R I). lia.
  - destruct (step_inv s s' D R I (SC s s' H)) as (D1 & R1 & I1). specialize (IH D1 R1 I1).
    pose proof (cstep_work s s' D R I NE H). lia.
  - destruct (step_inv s s' D R I H) as (D1 & R1 & I1). specialize (IH D1 R1 I1). rewrite E in IH. exact IH.
Qed.

(** concrete schedules are executions *)
Lemma go_reach q : forall l s s', reach q s -> go s l = Some s' -> reach q s'.
Proof.
  induction l as [|a l IH]; intros s s' H E; cbn in E; [congruence|].
  destruct (act_step s a) as [s1|] eqn:EA; [|discriminate]. apply (IH s1); [|exact E].
  apply (RS q s s1 H). destruct a; cbn in EA.
  - destruct (pstep s) eqn:EP; try discriminate. injection EA as <-. apply SP; exact EP.
  - destruct (cstep s) eqn:EP; try discriminate. injection EA as <-. apply SC; exact EP.
  - destruct (pp s) eqn:EP; try discriminate. destruct (_ && _) eqn:EB; [|discriminate]. injection EA as <-.
    apply andb_true_iff in EB as [B1 B2]. apply SPush; [exact EP|lia].
  - destruct (cp s) eqn:EP; try discriminate. destruct (_ && _) eqn:EB; [|discriminate]. injection EA as <-.
    apply andb_true_iff in EB as [B1 B3]. apply andb_true_iff in B1 as [B1 B2]. apply SPop; [exact EP|lia|lia].
  - destruct (cp s) eqn:EP; try discriminate. injection EA as <-. apply SNext; exact EP.
Qed.
