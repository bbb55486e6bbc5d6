(** Proofs for C81, part 3: calls, stores reaching memory, the theorems *)
From Verif Require Import MpliteProof2 MpliteProof6.
From Verif Require Import CBase SeqLib RingBuffer2Model RingBuffer2Proof MsgQueueModel MsgQueueSpec MsgQueueProof SpscModel SpscSpec SpscProof SpscProof2 SpscProof4 MqTsoModel MqTsoSpec MqTsoProof MqTsoProof2.

Lemma tboot_inv q : good_queue q -> tinv (tboot q) [] [] 0 0.
Proof.
  intros (A & B & P & L). pose proof (pow2_bound _ P).
  split; cbn [tboot t_size t_mem t_in t_out t_log t_pp t_cp t_wbuf t_rbuf]; auto.
  - constructor.
  - unfold xin, xout; cbn. lia.
  - exists [], []. auto.
  - unfold xout; cbn. intros; lia.
  - cbn [good]. split; [reflexivity|]. split; [exact L|exact I].
  - reflexivity.
  - exact I.
  - exact I.
  - constructor.
  - reflexivity.
  - reflexivity.
  - exact I.
Qed.
Lemma tpush_inv s D R p q m : tinv s D R p q -> t_pp s = PIdle -> msz m -> tinv (tset_pp (temit s (E (EPush m))) (P44 m)) D R p q.
Proof.
  intros I EE Hm. destruct I. set (s' := tset_pp (temit s (E (EPush m))) (P44 m)).
  assert (TI : xin s' (D ++ R) = xin s (D ++ R)) by (unfold xin; cbn [t_pp tset_pp s']; rewrite EE; reflexivity).
  assert (TS : xstm s' (D ++ R) = xstm s (D ++ R)) by (unfold xstm; cbn [t_pp tset_pp s']; rewrite EE; reflexivity).
  assert (TO : xout s' D = xout s D) by reflexivity.
  rewrite EE in *. cbn [ppend pflight] in *. rewrite app_nil_r in *.
  split; rewrite ?TI, ?TS, ?TO; auto.
  - eapply good_impl; [apply Z.le_refl| |exact v_wb]. intros m0 p0 (T1 & T2 & T3). unfold tail. rewrite TI. cbn [t_pp tset_pp s']. auto.
  - unfold tpinv. cbn [t_pp tset_pp s' t_log temit pcall_at]. split; [exact Hm|]. split; [symmetry; exact v_acc|exact v_rs].
  - cbn [s' t_log tset_pp temit plain flat_map app sent]. fold (plain (t_log s)). cbn [t_pp pflight]. rewrite v_sent. reflexivity.
  - cbn [s' t_log tset_pp temit plain flat_map app accepted]. fold (plain (t_log s)). cbn [t_pp ppend]. rewrite app_nil_r. exact v_acc.
  - split; [exact I|exact v_ev].
Qed.
Lemma tccall_inv s e c D R p q : tinv s D R p q -> t_cp s = CIdle ->
  (exists t cap, e = EPop t cap /\ c = C78 t cap /\ 0 <= cap < two32 /\ cap <= zlen t) \/ (e = ENext /\ c = C60) ->
  tinv (tset_cp (temit s (E e)) c) D R p q.
Proof.
  intros I EE He. destruct I. set (s' := tset_cp (temit s (E e)) c).
  assert (coff c = 0 /\ cpend c = [] /\ pops (e :: plain (t_log s)) = pops (plain (t_log s)) /\ pcall_at (E e :: t_log s) = pcall_at (t_log s) /\
          sent (e :: plain (t_log s)) = sent (plain (t_log s)) /\ accepted (e :: plain (t_log s)) = accepted (plain (t_log s)) /\ ccall_at (E e :: t_log s) = t_log s /\
          wsync_at (E e :: t_log s) = wsync_at (t_log s) /\ rsync_at (E e :: t_log s) = rsync_at (t_log s) /\
          tev_ok (t_size s) (E e) (t_log s)) as (K1 & K2 & K3 & K4 & K5 & K6 & K7 & K8 & K9 & K10).
  { destruct He as [(t & cap & -> & -> & _)|[-> ->]]; repeat split. }
  assert (TO : xout s' D = xout s D) by (unfold xout; cbn [t_cp tset_cp s']; rewrite EE, K1; reflexivity).
  rewrite EE in *. cbn [cpend] in *. 
  split; rewrite ?TO; cbn [s' t_log tset_cp temit]; change (plain (E e :: t_log s)) with (e :: plain (t_log s)); rewrite ?K5, ?K6, ?K8, ?K9, ?K3; auto.
  - apply (tpinv_mono s s' (D ++ R) q q); auto. apply Z.le_refl.
  - unfold tcinv. cbn [t_cp tset_cp s' t_log temit]. rewrite K7. destruct He as [(t & cap & -> & -> & A & B)|[-> ->]]; auto.
  - change (t_cp s') with c. rewrite K2. exact v_pops.
  - split; [exact K10|exact v_ev].
Qed.
(** ** stores reach memory *)
Lemma twflush_inv s D R p q e b : tinv s D R p q -> t_wbuf s = e :: b -> exists s' p', commit (tset_wbuf s b) e = Ret s' /\ tinv s' D R p' q.
Proof.
  intros I EB. destruct I. rewrite EB in v_wb. pose proof v_rng as (R1 & R2 & R3). pose proof (pow2_bound _ v_pow) as PB. destruct e as [a v|v]; cbn [good commit] in *.
  - destruct v_wb as (x & m' & -> & A & B & C). cbn [t_mem tset_wbuf]. rewrite B. cbn [bind]. eexists _, p. split; [reflexivity|].
    assert (0 <= x mod t_size s < t_size s) as Hp by (apply Z.mod_pos_bound; lia).
    destruct (mstore_ok (t_mem s) (x mod t_size s) v ltac:(lia)) as (mm & HS & HL & HX & HO). rewrite B in HS. injection HS as <-.
    split; auto.
    + cbn [t_mem tset_mem t_size tset_wbuf]. lia.
    + intros j Hj. change (xout (tset_mem (tset_wbuf s b) m') D) with (xout s D) in Hj. cbn [t_mem tset_mem t_size tset_wbuf]. rewrite HO; [apply v_dat; lia|]. apply SpscProof.mod_ne; lia.
  - destruct v_wb as (p' & A & -> & BB & B & C). rewrite xstm_len in A. eexists _, p'. split; [reflexivity|].
    split; auto.
    + change (0 <= q <= xout s D /\ xout s D <= p' <= xin s (D ++ R) /\ xin s (D ++ R) <= q + t_size s). lia.
    + intros j Hj. change (znth (j mod t_size s) (t_mem s) = znth j (xstm s (D ++ R))). change (xout s D <= j < p') in Hj. destruct (Z_lt_dec j p); [apply v_dat; lia|apply B; lia].
    + rewrite <- (app_nil_r R). apply (tcinv_mono s _ D R [] p p'); auto; lia.
    + cbn [t_log tset_in tset_wbuf]. lia.
Qed.
Lemma trflush_inv s D R p q x b : tinv s D R p q -> t_rbuf s = x :: b -> exists q', tinv (tset_rbuf (tset_out s x) b) D R p q'.
Proof.
  intros I EB. destruct I. rewrite EB in v_rb. pose proof v_rng as (R1 & R2 & R3). cbn [goodr] in v_rb. destruct v_rb as (q' & A & -> & C). exists q'.
  split; auto.
  - change (0 <= q' <= xout s D /\ xout s D <= p <= xin s (D ++ R) /\ xin s (D ++ R) <= q' + t_size s). lia.
  - eapply good_impl; [|apply tail_ext; reflexivity|exact v_wb]. lia.
  - apply (tpinv_mono s _ (D ++ R) q q'); auto. lia.
  - cbn [t_log tset_rbuf tset_out]. lia.
Qed.
Lemma twsync_inv s D R p q : tinv s D R p q -> t_pp s = PIdle -> t_wbuf s = [] -> tinv (temit s WSync) D R p q.
Proof.
  intros I EW EB. destruct I. rewrite EB in v_wb. cbn [good] in v_wb. pose proof v_wb as (EP & _).
  split; auto.
  - cbn [t_wbuf temit]. rewrite EB. exact v_wb.
  - cbn [t_log temit wsync_at]. rewrite EW in v_acc. cbn [ppend] in v_acc. rewrite app_nil_r in v_acc. rewrite <- v_acc, EP. unfold xin. rewrite EW. cbn [poff]. lia.
  - split; [exact I|exact v_ev].
Qed.
Lemma trsync_inv s D R p q : tinv s D R p q -> t_cp s = CIdle -> t_rbuf s = [] -> tinv (temit s RSync) D R p q.
Proof.
  intros I EW EB. pose proof (pops_le _ _ _ _ _ I) as PL. destruct I. rewrite EB in v_rb. cbn [goodr] in v_rb.
  split; auto.
  - cbn [t_rbuf temit]. rewrite EB. exact v_rb.
  - cbn [t_log temit rsync_at]. rewrite EW in v_pops. cbn [cpend] in v_pops. rewrite app_nil_r in v_pops. rewrite (used_firstn_app _ _ _ PL). rewrite v_rb. unfold xout. rewrite EW. cbn [coff].
    pose proof (used_split (length (pops (plain (t_log s)))) D). pose proof (used_nonneg (skipn (length (pops (plain (t_log s)))) D)). lia.
  - split; [exact I|exact v_ev].
Qed.
Lemma tstep_inv s D R p q s' : tinv s D R p q -> tstep false s s' -> exists D' R' p' q', tinv s' D' R' p' q'.
Proof.
  intros I H. destruct H as [s s' H|s s' H|s m EE OK|s t cap EE O1 O2|s EE|s s' a e b EB O SP C|s x b EB|s EW EB|s EW EB].
  - destruct (tpstep_inv s D R p q I) as (s1 & X & H1 & I1). rewrite H in H1. injection H1 as <-. eauto.
  - destruct (tcstep_inv s D R p q I) as (s1 & D1 & R1 & H1 & I1 & _). rewrite H in H1. injection H1 as <-. eauto.
  - exists D, R, p, q. apply tpush_inv; auto.
  - exists D, R, p, q. apply tccall_inv; auto. left. exists t, cap. auto.
  - exists D, R, p, q. apply tccall_inv; auto.
  - destruct O as [O| ->]; [discriminate|]. cbn [app] in *. destruct (twflush_inv s D R p q e b I EB) as (s1 & p' & H1 & I1). rewrite C in H1. injection H1 as <-. eauto.
  - destruct (trflush_inv s D R p q x b I EB) as (q' & I1). eauto.
  - exists D, R, p, q. apply twsync_inv; auto.
  - exists D, R, p, q. apply trsync_inv; auto.
Qed.
Lemma treach_inv q s : good_queue q -> treach false q s -> exists D R p k, tinv s D R p k.
Proof.
  intros G H. induction H as [|s s' _ (D & R & p & k & I) HS].
  - exists [], [], 0, 0. apply tboot_inv; exact G.
  - eapply tstep_inv; eauto.
Qed.
Lemma tpstep_size s s' : tpstep s = Ret s' -> t_size s' = t_size s.
Proof.
  unfold tpstep. destruct (t_pp s) as [|m|hd m|hd m n start i|m c]; intro H; try (injection H as <-; reflexivity).
  - destruct ((zlen (psrc hd m) =? 0) || (room s =? 0)); [|injection H as <-; reflexivity]. destruct (pfinish hd m 0); cbn [bind] in H; try discriminate; injection H as <-; reflexivity.
  - destruct (i <? n).
    + destruct (mload (psrc hd m) i); cbn [bind] in H; try discriminate. injection H as <-; reflexivity.
    + destruct (pfinish hd m n); cbn [bind] in H; try discriminate; injection H as <-; reflexivity.
Qed.
Lemma tcstep_size s s' : tcstep s = Ret s' -> t_size s' = t_size s.
Proof.
  unfold tcstep. destruct (t_cp s) as [| |t cap|j|j n start i tgt|t cap c t' sz'|n]; intro H; try (injection H as <-; reflexivity).
  - destruct ((jreq j =? 0) || (filled s =? 0)); [|injection H as <-; reflexivity]. destruct (cfinish _ _ _); cbn [bind] in H; try discriminate; injection H as <-; reflexivity.
  - destruct (i <? n).
    + destruct (mload _ _); cbn [bind] in H; try discriminate. destruct (mstore _ _ _); cbn [bind] in H; try discriminate; injection H as <-; reflexivity.
    + destruct (jpeek j); destruct (cfinish _ _ _); cbn [bind] in H; try discriminate; injection H as <-; reflexivity.
Qed.
Lemma commit_size s e s' : commit s e = Ret s' -> t_size s' = t_size s.
Proof. destruct e; cbn [commit]; [destruct (mstore _ _ _); try discriminate; cbn [bind]|]; intro H; injection H as <-; auto. Qed.
Lemma tstep_size o s s' : tstep o s s' -> t_size s' = t_size s.
Proof.
  intros H. destruct H as [s s' H|s s' H|s m EE OK|s t cap EE O1 O2|s EE|s s' a e b EB O SP C|s x b EB|s EW EB|s EW EB]; try reflexivity.
  - apply tpstep_size; exact H.
  - apply tcstep_size; exact H.
  - rewrite (commit_size _ _ _ C). reflexivity.
Qed.
Lemma treach_size o q s : treach o q s -> t_size s = rb_size q.
Proof. induction 1 as [|s s' H IH HS]; [reflexivity|]. rewrite (tstep_size _ _ _ HS). exact IH. Qed.

Lemma tno_fault q s : good_queue q -> treach false q s ->
  (exists s', tpstep s = Ret s') /\ (exists s', tcstep s = Ret s') /\ (forall e b, t_wbuf s = e :: b -> exists s', commit (tset_wbuf s b) e = Ret s').
Proof.
  intros G H. destruct (treach_inv q s G H) as (D & R & p & k & I).
  destruct (tpstep_inv s D R p k I) as (s1 & R1 & H1 & _). destruct (tcstep_inv s D R p k I) as (s2 & D2 & R2 & H2 & _). split; [eauto|]. split; [eauto|].
  intros e b EB. destruct (twflush_inv s D R p k e b I EB) as (s3 & p' & H3 & _). eauto.
Qed.
Lemma tfifo q s : good_queue q -> treach false q s ->
  prefix (accepted (plain (t_log s))) (sent (plain (t_log s))) /\
  exists D, prefix D (sent (plain (t_log s))) /\ Forall2 stored (pops (plain (t_log s))) D.
Proof.
  intros G H. destruct (treach_inv q s G H) as (D & R & p & k & []). split.
  - rewrite v_sent, v_acc. exists (ppend (t_pp s) ++ pflight (t_pp s)). rewrite app_assoc. reflexivity.
  - apply Forall2_app_inv_l in v_pops as (D1 & D2 & F1 & F2 & ->). exists D1. split; [|exact F1].
    rewrite v_sent, <- !app_assoc. eexists; reflexivity.
Qed.
Lemma tevents q s e l2 l : good_queue q -> treach false q s -> t_log s = l2 ++ e :: l -> tev_ok (rb_size q) e l.
Proof.
  intros G H EE. pose proof (treach_size false q s H) as ES. destruct (treach_inv q s G H) as (D & R & p & k & []).
  rewrite EE in v_ev. rewrite <- ES. clear - v_ev. induction l2 as [|x l2 IH]; cbn in v_ev; [apply v_ev|]. apply IH, v_ev.
Qed.
(** ** bounded number of own steps *)
Lemma tpwork_nonneg s D R p q : tinv s D R p q -> 0 <= pwork (t_pp s).
Proof. intros []. unfold tpinv in v_p. destruct (t_pp s) as [|m|[] m|[] m n start i|m c]; cbn [pwork]; try lia; unfold msz in v_p; lia. Qed.
Lemma tpstep_work s s' D R p q : tinv s D R p q -> t_pp s <> PIdle -> tpstep s = Ret s' -> pwork (t_pp s') < pwork (t_pp s).
Proof.
  intros I NE H. pose proof (room_eq s D R p q I) as AW. destruct I. unfold tpinv in v_p. unfold tpstep in H.
  destruct (t_pp s) as [|m|hd m|hd m n start i|m c]; try congruence.
  - injection H as <-. destruct v_p as [Hm _]. unfold msz in Hm. destruct (_ <? _); cbn [t_pp tset_pp pwork]; lia.
  - destruct v_p as [Hm HF]. unfold msz in Hm. rewrite psrc_len, AW in H.
    destruct ((if hd then 4 else zlen m) =? 0) eqn:E1; [destruct hd; lia|].
    destruct (t_size s - (xin s (D ++ R) - q) =? 0) eqn:E2; [destruct hd; lia|]. cbn [orb] in H.
    rewrite take_min_eq in H. injection H as <-. destruct hd; cbn [t_pp tset_pp pwork]; lia.
  - destruct v_p as (Hm & HF & Hn & Hst & Hi). unfold msz in Hm. destruct (i <? n) eqn:EE.
    + destruct (mload _ _); cbn [bind] in H; try discriminate. injection H as <-. destruct hd; cbn [t_pp tset_pp pwork]; lia.
    + unfold pfinish, assert_abort in H. destruct hd.
      * destruct (n =? hdr_size); cbn [bind] in H; try discriminate; injection H as <-; cbn [t_pp tset_pp pwork]; lia.
      * destruct (n =? zlen m); cbn [bind] in H; try discriminate; injection H as <-; cbn [t_pp tset_pp pwork]; lia.
  - injection H as <-. cbn. lia.
Qed.
Lemma tcwork_nonneg s D R p q : tinv s D R p q -> 0 <= cwork (t_cp s).
Proof.
  intros []. unfold tcinv in v_c.
  destruct (t_cp s) as [| |t cap|[|t cap a|t cap x|t cap x]|[|t cap a|t cap x|t cap x] n start i tgt|t cap c t' sz'|n];
    cbn [cwork]; try lia.
  - destruct v_c as (m1 & r & _ & _ & H). lia.
  - destruct v_c as (m1 & r & _ & _ & H). lia.
  - destruct v_c as (m1 & r & _ & _ & H). pose proof (zlen_nonneg m1). lia.
  - destruct v_c as ((m1 & r & _ & _ & H) & K). lia.
  - destruct v_c as ((m1 & r & _ & _ & H) & K). lia.
Qed.
Lemma tcstep_work s s' D R p q : tinv s D R p q -> t_cp s <> CIdle -> tcstep s = Ret s' -> cwork (t_cp s') < cwork (t_cp s).
Proof.
  intros I NE H. pose proof (filled_eq s D R p q I) as AR. destruct I. unfold tcinv in v_c. unfold tcstep in H.
  destruct (t_cp s) as [| |t cap|j|j n start i tgt|t cap c t' sz'|n] eqn:EC; try congruence.
  - injection H as <-. destruct (_ <? _); cbn [t_cp tset_cp cwork]; lia.
  - injection H as <-. destruct (_ <? _); cbn [t_cp tset_cp cwork]; lia.
  - destruct v_c as (m1 & rest & HR & _ & HJ).
    assert (msz m1) as Hm1.
    { rewrite HR in v_msz. apply Forall_app in v_msz as [_ F]. inversion F; auto. }
    unfold msz in Hm1.
    assert (0 < jreq j) as Hpos by (destruct j; cbn [jreq]; unfold hdr_size; lia).
    destruct ((jreq j =? 0) || (filled s =? 0)) eqn:EE.
    + unfold cfinish, assert_abort in H. destruct (0 =? jreq j) eqn:E0; [lia|]. cbn [bind] in H. discriminate.
    + injection H as <-. rewrite take_min_eq. destruct j; cbn [t_cp tset_cp cwork jreq jtgt] in *; unfold hdr_size in *; lia.
  - destruct v_c as (J & Hn & Hst & Hi & HT). destruct J as (m1 & rest & HR & _ & HJ). destruct (i <? n) eqn:EE.
    + destruct (mload _ _); cbn [bind] in H; try discriminate.
      destruct (mstore _ _ _); cbn [bind] in H; try discriminate. injection H as <-. destruct j; cbn [t_cp tset_cp cwork]; lia.
    + unfold cfinish, assert_abort in H. destruct (n =? jreq j); [|destruct (jpeek j); discriminate]. cbn [bind] in H.
      destruct j as [|t cap a|t cap x|t cap x]; cbn [jpeek] in H.
      * destruct (le32_dec tgt); cbn [bind] in H; try discriminate. injection H as <-. cbn [t_cp tset_cp cwork]; lia.
      * destruct (le32_dec tgt); cbn [bind] in H; try discriminate.
        destruct (a <? u64 (hdr_size + a0)); [|destruct (a0 >? cap)]; cbn [bind] in H; injection H as <-; cbn [t_cp tset_cp cwork]; lia.
      * cbn [bind] in H. injection H as <-. cbn [t_cp tset_cp cwork]; lia.
      * cbn [bind] in H. injection H as <-. cbn [t_cp tset_cp cwork]; lia.
  - injection H as <-. cbn. lia.
  - injection H as <-. cbn. lia.
Qed.
Lemma tprun_bound n s s' : tprun false n s s' -> forall D R p q, tinv s D R p q -> Z.of_nat n <= pwork (t_pp s).
Proof.
  induction 1 as [s|n s s' s'' NE H _ IH|n s s' s'' H EE _ IH]; intros D R p q I.
  - pose proof (tpwork_nonneg s D R p q I). lia.
  - destruct (tstep_inv s D R p q s' I (TP false s s' H)) as (D1 & R1 & p1 & q1 & I1). specialize (IH D1 R1 p1 q1 I1).
    pose proof (tpstep_work s s' D R p q I NE H). lia.
  - destruct (tstep_inv s D R p q s' I H) as (D1 & R1 & p1 & q1 & I1). specialize (IH D1 R1 p1 q1 I1). rewrite EE in IH. exact IH.
Qed.
Lemma tcrun_bound n s s' : tcrun false n s s' -> forall D R p q, tinv s D R p q -> Z.of_nat n <= cwork (t_cp s).
Proof.
  induction 1 as [s|n s s' s'' NE H _ IH|n s s' s'' H EE _ IH]; intros D R p q I.
  - pose proof (tcwork_nonneg s D R p q I). lia.
  - destruct (tstep_inv s D R p q s' I (TC false s s' H)) as (D1 & R1 & p1 & q1 & I1). specialize (IH D1 R1 p1 q1 I1).
    pose proof (tcstep_work s s' D R p q I NE H). lia.
  - destruct (tstep_inv s D R p q s' I H) as (D1 & R1 & p1 & q1 & I1). specialize (IH D1 R1 p1 q1 I1). rewrite EE in IH. exact IH.
Qed.
(** ** concrete runs *)
Inductive act := AP | AC | APush (m : list Z) | APop (t : list Z) (cap : Z) | ANext | FW (n : nat) | FR | SW | SR.
Definition tplay1 (o : bool) (a : act) (s : tst) : outcome tst :=
  match a with
  | AP => tpstep s
  | AC => tcstep s
  | APush m => match t_pp s with PIdle => if (0 <? zlen m) && (zlen m <? two32) then Ret (tset_pp (temit s (E (EPush m))) (P44 m)) else Ub | _ => Ub end
  | APop t cap => match t_cp s with CIdle => if (0 <=? cap) && (cap <? two32) && (cap <=? zlen t) then Ret (tset_cp (temit s (E (EPop t cap))) (C78 t cap)) else Ub | _ => Ub end
  | ANext => match t_cp s with CIdle => Ret (tset_cp (temit s (E ENext)) C60) | _ => Ub end
  | FW n =>
      match skipn n (t_wbuf s) with
      | e :: b => if (o || (Nat.eqb n 0)) && forallb (fun x => negb (same_place x e)) (firstn n (t_wbuf s)) then commit (tset_wbuf s (firstn n (t_wbuf s) ++ b)) e else Ub
      | [] => Ub
      end
  | FR => match t_rbuf s with x :: b => Ret (tset_rbuf (tset_out s x) b) | [] => Ub end
  | SW => match t_pp s, t_wbuf s with PIdle, [] => Ret (temit s WSync) | _, _ => Ub end
  | SR => match t_cp s, t_rbuf s with CIdle, [] => Ret (temit s RSync) | _, _ => Ub end
  end.
Fixpoint tplay (o : bool) (l : list act) (s : tst) : outcome tst := match l with [] => Ret s | a :: l => do s <- tplay1 o a s; tplay o l s end.
Lemma tplay1_step o a s s' : tplay1 o a s = Ret s' -> tstep o s s'.
Proof.
  intros H. destruct a as [| |m|t cap| |n| | |]; cbn [tplay1] in H.
  - apply TP; exact H.
  - apply TC; exact H.
  - destruct (t_pp s) eqn:W; try discriminate. destruct (_ && _) eqn:B; [|discriminate]. injection H as <-. apply andb_true_iff in B as [B1 B2]. apply TPush; [exact W|lia].
  - destruct (t_cp s) eqn:W; try discriminate. destruct (_ && _) eqn:B; [|discriminate]. injection H as <-. apply andb_true_iff in B as [B1 B3]. apply andb_true_iff in B1 as [B1 B2]. apply TPop; [exact W|lia|lia].
  - destruct (t_cp s) eqn:W; try discriminate. injection H as <-. apply TNext; exact W.
  - destruct (skipn n (t_wbuf s)) as [|e b] eqn:SK; try discriminate.
    destruct ((o || Nat.eqb n 0) && forallb (fun x => negb (same_place x e)) (firstn n (t_wbuf s))) eqn:Q; try discriminate. apply andb_true_iff in Q. destruct Q as (Q1 & Q2).
    apply (TWFlush o s s' (firstn n (t_wbuf s)) e b); auto.
    + rewrite <- SK. symmetry. apply firstn_skipn.
    + apply orb_true_iff in Q1. destruct Q1 as [Q1|Q1]; [left; exact Q1|right]. apply Nat.eqb_eq in Q1. subst n. reflexivity.
  - destruct (t_rbuf s) as [|x b] eqn:B; try discriminate. injection H as <-. apply TRFlush. exact B.
  - destruct (t_pp s) eqn:W; try discriminate. destruct (t_wbuf s) eqn:B; try discriminate. injection H as <-. apply TWSync; auto.
  - destruct (t_cp s) eqn:W; try discriminate. destruct (t_rbuf s) eqn:B; try discriminate. injection H as <-. apply TRSync; auto.
Qed.
Lemma tplay_reach o q l : forall s s', treach o q s -> tplay o l s = Ret s' -> treach o q s'.
Proof.
  induction l as [|a l IH]; intros s s' R EE; cbn [tplay] in EE; [injection EE as <-; exact R|].
  destruct (tplay1 o a s) as [s1| | |] eqn:P1; try discriminate. cbn [bind] in EE. apply (IH s1 s'); [|exact EE]. eapply TS; [exact R|]. exact (tplay1_step o a s s1 P1).
Qed.
