(** Proofs for C78, part 2: the stream, number of steps, creation, runs *)
From Verif Require Import MpliteProof2 MpliteProof6.
From Verif Require Import CBase SeqLib RingBufModel RingBufProof RgMtModel RgMtSpec RgMtProof.

Lemma agree_len g b : agree g b -> zlen g = zlen b.
Proof. intro A. unfold zlen. f_equal. induction A; cbn; congruence. Qed.
Lemma agree_some l : agree (map Some l) l.
Proof. induction l; constructor; auto. Qed.
Lemma agree_none l : agree (repeat None (length l)) l.
Proof. induction l; constructor; auto. Qed.
Lemma agree_app a b a' b' : agree a b -> agree a' b' -> agree (a ++ a') (b ++ b').
Proof. intros. apply Forall2_app; assumption. Qed.
Lemma ztake_more n m (l : list Z) : 0 <= n -> 0 <= m -> ztake (n + m) l = ztake n l ++ ztake m (zdrop n l).
Proof.
  intros N M. rewrite <- (ztake_zdrop n (ztake (n + m) l)) at 1. rewrite ztake_ztake, Z.min_l by lia. f_equal. rewrite zdrop_ztake by lia. f_equal. lia.
Qed.
Section P.
Variable h : @ring Z.
Hypothesis RI : empty_ring h.
Let c0 := rg_w h.
Lemma C0 : 0 <= c0. Proof. destruct RI as (_ & _ & X & _). unfold c0. lia. Qed.
Notation inv := (inv c0).
Definition full s S k := inv s S k /\ csize s = rg_size h /\ agree (got (log s)) (ztake (taken (log s)) S).
Lemma wstep_csize s s' : wstep s = Ret s' -> csize s' = csize s /\ got (log s') = got (log s) /\ taken (log s') = taken (log s).
Proof.
  unfold wstep. destruct (wp s) as [| |c|c start i|c n]; intro H.
  - injection H as <-. auto.
  - injection H as <-. auto.
  - destruct ((wlen c =? 0) || (wlen c >? avail_write s)); injection H as <-; auto.
  - destruct (i <? wlen c); [|injection H as <-; auto]. destruct (mload _ _); try discriminate. cbn [bind] in H. destruct (mstore _ _ _); try discriminate. cbn [bind] in H. injection H as <-. auto.
  - injection H as <-. auto.
Qed.
Lemma rstep_full s s' S k k' : full s S k -> rstep s = Ret s' -> inv s' S k' -> full s' S k'.
Proof.
  intros (I & CS & AG) H I'. split; [exact I'|]. unfold rstep in H. pose proof (i_r _ _ _ _ I) as RR. unfold rinv in RR. destruct (rp s) as [| |c|c start i t|c n t'] eqn:ER.
  - injection H as <-. auto.
  - injection H as <-. auto.
  - destruct ((rlen c =? 0) || (rlen c >? avail_read s)); injection H as <-; auto.
  - destruct (i <? rlen c); [|destruct (is_peek c); injection H as <-; auto]. destruct (mload _ _); try discriminate. cbn [bind] in H. destruct (mstore _ _ _); try discriminate. cbn [bind] in H. injection H as <-. auto.
  - injection H as <-. cbn [csize log set_rp emit]. split; [exact CS|]. cbn [got taken]. pose proof (rret_le c0 s S k c n t' I ER) as RL.
    destruct RR as ((OK1 & OK2) & k1 & K1 & K2 & K3 & K4). cbv zeta in K2, K3. pose proof (i_tk _ _ _ _ I) as TK. pose proof (i_rng _ _ _ _ I) as (R1 & R2).
    rewrite ztake_more by lia. apply agree_app; [exact AG|].
    assert (N : forall len, n = granted len (k1 - taken (log s)) -> n <= k1 - taken (log s)) by (intros len ->; apply granted_rng; lia).
    assert (LN : 0 <= n -> n <= k1 - taken (log s) -> zlen (ztake n (zdrop (taken (log s)) S)) = n) by (intros; apply zlen_ztake; rewrite zlen_zdrop by lia; lia).
    assert (GET : forall m t0, 0 <= m -> m <= k1 - taken (log s) -> ztake m (next s S m ++ zdrop m t0) = ztake m (zdrop (taken (log s)) S)).
    { intros m t0 M0 M1. unfold next. assert (L : zlen (ztake m (zdrop (taken (log s)) S)) = m) by (apply zlen_ztake; rewrite zlen_zdrop by lia; lia). rewrite ztake_app_l by lia. apply ztake_all. lia. }
    destruct c as [[t0|] len|[t0|] len|len|]; cbn [rbytes rlen rtgt] in *; subst t'; cbn [gets]; try (cbn; constructor).
    + rewrite GET by (try apply (N len); auto; lia). apply agree_some.
    + replace (Z.to_nat n) with (length (ztake n (zdrop (taken (log s)) S))); [apply agree_none|]. specialize (LN ltac:(lia) (N len K3)). unfold zlen in LN. lia.
    + replace (Z.to_nat n) with (length (ztake n (zdrop (taken (log s)) S))); [apply agree_none|]. specialize (LN ltac:(lia) (N len K3)). unfold zlen in LN. lia.
Qed.
Lemma step_full s S k s' : full s S k -> step s s' -> exists S' k', full s' S' k'.
Proof.
  intros F H. pose proof F as (I & CS & AG). destruct H as [s s' H|s s' H|s c E OK|s c E OK].
  - destruct (wstep_inv c0 C0 s S k I) as (s1 & X & H1 & I1). rewrite H in H1. injection H1 as <-. destruct (wstep_csize s s' H) as (E1 & E2 & E3). exists (S ++ X), k. split; [exact I1|]. split; [congruence|].
    rewrite E2, E3. pose proof (i_tk _ _ _ _ I). pose proof (taken_le c0 s S k I). pose proof (i_rng _ _ _ _ I). rewrite ztake_app_l by lia. exact AG.
  - destruct (rstep_inv c0 C0 s S k I) as (s1 & k' & H1 & I1). rewrite H in H1. injection H1 as <-. exists S, k'. exact (rstep_full s s' S k k' F H I1).
  - exists S, k. split; [apply wcall_inv; auto|]. split; [exact CS|]. exact AG.
  - exists S, k. split; [apply rcall_inv; auto|]. split; [exact CS|]. exact AG.
Qed.
Lemma reach_full s : reach h s -> exists S k, full s S k.
Proof.
  induction 1 as [|s s' R IH ST].
  - exists [], 0. destruct RI as (SZ & L & W & E). split; [|split; [reflexivity|constructor]].
    split; cbn [csize mem off_w off_r log wp rp boot]; auto; try exact Logic.I.
    + change (zlen (@nil Z)) with 0. rewrite Z.add_0_r. symmetry. apply Z.mod_small. exact W.
    + rewrite Z.add_0_r. rewrite E. symmetry. apply Z.mod_small. exact W.
    + change (zlen (@nil Z)) with 0. lia.
    + intros j Hj. change (zlen (@nil Z)) with 0 in Hj. lia.
    + cbn. lia.
  - destruct IH as (S & k & F). exact (step_full s S k s' F ST).
Qed.

(** ** number of steps *)
Definition wleft (p : wpc) : Z := match p with WIdle => 0 | WSpaceAt => 2 | WCheck c => wlen c + 3 | WCopy c _ i => wlen c - i + 2 | WRet _ _ => 1 end.
Definition rleft (p : rpc) : Z := match p with RIdle => 0 | RAvailAt => 2 | RCheck c => rlen c + 3 | RCopy c _ i _ => rlen c - i + 2 | RRet _ _ _ => 1 end.
Lemma wlen_nonneg c : wok c -> 0 <= wlen c. Proof. destruct c; cbn; lia. Qed.
Lemma wleft_step s S k s' : inv s S k -> wp s <> WIdle -> wstep s = Ret s' -> 0 <= wleft (wp s') < wleft (wp s).
Proof.
  intros I NI H. pose proof (i_w _ _ _ _ I) as W. unfold winv in W. unfold wstep in H. destruct (wp s) as [| |c|c start i|c n] eqn:EW; try congruence.
  - injection H as <-. cbn. lia.
  - destruct W as (W & _). apply wlen_nonneg in W. destruct ((wlen c =? 0) || (wlen c >? avail_write s)); injection H as <-; cbn [set_wp wp wleft]; lia.
  - destruct W as (_ & _ & _ & Hi & _). destruct (i <? wlen c) eqn:Q; [|injection H as <-; cbn; lia]. destruct (mload _ _); try discriminate. cbn [bind] in H. destruct (mstore _ _ _); try discriminate. cbn [bind] in H. injection H as <-. cbn [set_wp set_mem wp wleft]. lia.
  - injection H as <-. cbn. lia.
Qed.
Lemma rleft_step s S k s' : inv s S k -> rp s <> RIdle -> rstep s = Ret s' -> 0 <= rleft (rp s') < rleft (rp s).
Proof.
  intros I NI H. pose proof (i_r _ _ _ _ I) as W. unfold rinv in W. unfold rstep in H. destruct (rp s) as [| |c|c start i t|c n t'] eqn:EW; try congruence.
  - injection H as <-. cbn. lia.
  - destruct W as ((W & _) & _). destruct ((rlen c =? 0) || (rlen c >? avail_read s)); injection H as <-; cbn [set_rp rp rleft]; [lia|]. destruct (rtgt c); lia.
  - destruct W as (_ & _ & _ & Hi & _). destruct (i <? rlen c) eqn:Q; [|destruct (is_peek c); injection H as <-; cbn [set_rp set_r rp rleft]; lia]. destruct (mload _ _); try discriminate. cbn [bind] in H. destruct (mstore _ _ _); try discriminate. cbn [bind] in H. injection H as <-. cbn [set_rp rp rleft]. lia.
  - injection H as <-. cbn. lia.
Qed.
Lemma wleft_nonneg s S k : inv s S k -> 0 <= wleft (wp s).
Proof. intro I. pose proof (i_w _ _ _ _ I) as W. unfold winv in W. destruct (wp s) as [| |c|c start i|c n]; cbn [wleft]; try lia. apply proj1, wlen_nonneg in W. lia. Qed.
Lemma rleft_nonneg s S k : inv s S k -> 0 <= rleft (rp s).
Proof. intro I. pose proof (i_r _ _ _ _ I) as W. unfold rinv in W. destruct (rp s) as [| |c|c start i t|c n t']; cbn [rleft]; try lia. destruct W as ((W & _) & _). lia. Qed.
Lemma wrun_bound n s s' : wrun n s s' -> forall S k, inv s S k -> Z.of_nat n <= wleft (wp s).
Proof.
  induction 1 as [s|n s s1 s2 NI ST R IH|n s s1 s2 ST E R IH]; intros S k I.
  - pose proof (wleft_nonneg s S k I). lia.
  - destruct (wleft_step s S k s1 I NI ST) as (L1 & L2). destruct (wstep_inv c0 C0 s S k I) as (s3 & X & H1 & I1). rewrite ST in H1. injection H1 as <-. specialize (IH _ _ I1). lia.
  - destruct (step_inv c0 C0 s S k s1 I ST) as (S' & k' & I1). specialize (IH _ _ I1). rewrite E in IH. exact IH.
Qed.
Lemma rrun_bound n s s' : rrun n s s' -> forall S k, inv s S k -> Z.of_nat n <= rleft (rp s).
Proof.
  induction 1 as [s|n s s1 s2 NI ST R IH|n s s1 s2 ST E R IH]; intros S k I.
  - pose proof (rleft_nonneg s S k I). lia.
  - destruct (rleft_step s S k s1 I NI ST) as (L1 & L2). destruct (rstep_inv c0 C0 s S k I) as (s3 & X & H1 & I1). rewrite ST in H1. injection H1 as <-. specialize (IH _ _ I1). lia.
  - destruct (step_inv c0 C0 s S k s1 I ST) as (S' & k' & I1). specialize (IH _ _ I1). rewrite E in IH. exact IH.
Qed.

Lemma no_fault s : reach h s -> (exists s', wstep s = Ret s') /\ (exists s', rstep s = Ret s').
Proof.
  intro R. destruct (reach_full s R) as (S & k & I & _). split.
  - destruct (wstep_inv c0 C0 s S k I) as (s' & X & H & _). eauto.
  - destruct (rstep_inv c0 C0 s S k I) as (s' & X & H & _). eauto.
Qed.
Lemma every_answer s later e earlier : reach h s -> log s = later ++ e :: earlier -> event_ok (rg_size h - 1) e earlier.
Proof.
  intros R E. destruct (reach_full s R) as (S & k & I & CS & _). pose proof (i_evs _ _ _ _ I) as EV. rewrite CS, E in EV. clear - EV. induction later as [|x l IH]; cbn in EV; tauto.
Qed.
Lemma stream s : reach h s -> exists S, prefix (wrote (log s)) S /\ prefix S (offered (log s)) /\ agree (got (log s)) (ztake (zlen (got (log s))) S).
Proof.
  intro R. destruct (reach_full s R) as (S & k & I & CS & AG). exists S. split; [eexists; exact (i_wrote _ _ _ _ I)|]. split; [exact (prefix_offered _ s S k I)|].
  pose proof (agree_len _ _ AG) as L. pose proof (i_tk _ _ _ _ I). pose proof (taken_le _ s S k I). pose proof (i_rng _ _ _ _ I). rewrite zlen_ztake in L by lia. rewrite L. exact AG.
Qed.
Lemma wait_free_w s c n s' : reach h s -> wp s = WIdle -> wok c -> wrun n (set_wp (emit s (EWCall c)) (wbegin c)) s' ->
  Z.of_nat n <= match c with WWrite _ len => len + 3 | WSpace => 2 end.
Proof.
  intros R E OK W. assert (R' : reach h (set_wp (emit s (EWCall c)) (wbegin c))) by (eapply RS; [exact R|constructor; auto]).
  destruct (reach_full _ R') as (S & k & I & _). pose proof (wrun_bound n _ _ W S k I) as B. destruct c; exact B.
Qed.
Lemma wait_free_r s c n s' : reach h s -> rp s = RIdle -> rok c -> rrun n (set_rp (emit s (ERCall c)) (rbegin c)) s' ->
  Z.of_nat n <= match c with RRead _ len | RPeek _ len | RDiscard len => len + 3 | RAvail => 2 end.
Proof.
  intros R E OK W. assert (R' : reach h (set_rp (emit s (ERCall c)) (rbegin c))) by (eapply RS; [exact R|constructor; auto]).
  destruct (reach_full _ R') as (S & k & I & _). pose proof (rrun_bound n _ _ W S k I) as B. destruct c; exact B.
Qed.
End P.

(** ** rings that creation hands out *)
Lemma created_mem (m : list Z) hd : zlen m < 2 ^ 63 -> create_with_mem (Some m) (zlen m) = Ret (Some hd) -> empty_ring hd.
Proof.
  intros H E. pose proof (zlen_nonneg m). unfold create_with_mem, ring_struct_size in E. rewrite (u64s (40 + 3)) in E by (unfold two64; lia). destruct (zlen m <? 40 + 3) eqn:E1; [discriminate|]. destruct (zlen m <? 40) eqn:E2; [discriminate|].
  rewrite u64s in E by (unfold two64; lia). injection E as <-. unfold empty_ring. cbn. rewrite zlen_zdrop by lia. lia.
Qed.
Lemma created (malloc : Z -> option (list Z)) n hd : (forall k b, malloc k = Some b -> zlen b = k) -> n + 40 < 2 ^ 63 -> create malloc n = Ret (Some hd) -> empty_ring hd.
Proof.
  intros HM Hn E. unfold create, ring_struct_size in E. destruct (n <? 3) eqn:E0; [discriminate|]. rewrite u64s in E by (unfold two64; lia). destruct (malloc (n + 40)) as [m|] eqn:EM; [|discriminate]. pose proof (HM _ _ EM) as L. rewrite <- L in E.
  destruct (create_with_mem (Some m) (zlen m)) as [[h1|]| | |] eqn:C; try discriminate. cbn [bind] in E. injection E as <-. apply created_mem in C; [|lia]. exact C.
Qed.

(** ** runs for the examples *)
Inductive act := AW | AR | AWC (c : wcall) | ARC (c : rcall).
Fixpoint play (l : list act) (s : st) : outcome st :=
  match l with
  | [] => Ret s
  | a :: l =>
      match a with
      | AW => do s <- wstep s; play l s
      | AR => do s <- rstep s; play l s
      | AWC c => match wp s with WIdle => play l (set_wp (emit s (EWCall c)) (wbegin c)) | _ => Ub end
      | ARC c => match rp s with RIdle => play l (set_rp (emit s (ERCall c)) (rbegin c)) | _ => Ub end
      end
  end.
Definition act_ok (a : act) : Prop := match a with AWC c => wok c | ARC c => rok c | _ => True end.
Lemma play_reach h l : Forall act_ok l -> forall s s', reach h s -> play l s = Ret s' -> reach h s'.
Proof.
  induction 1 as [|a l A F IH]; intros s s' R E; cbn [play] in E; [injection E as <-; exact R|]. destruct a as [| |c|c].
  - destruct (wstep s) as [s1| | |] eqn:W; try discriminate. cbn [bind] in E. eapply IH; [|exact E]. eapply RS; [exact R|constructor; exact W].
  - destruct (rstep s) as [s1| | |] eqn:W; try discriminate. cbn [bind] in E. eapply IH; [|exact E]. eapply RS; [exact R|apply SR; exact W].
  - destruct (wp s) eqn:W; try discriminate. eapply IH; [|exact E]. eapply RS; [exact R|apply SWCall; auto].
  - destruct (rp s) eqn:W; try discriminate. eapply IH; [|exact E]. eapply RS; [exact R|apply SRCall; auto].
Qed.
Lemma play_steps l : Forall act_ok l -> forall s s', play l s = Ret s' -> Relation_Operators.clos_refl_trans _ step s s'.
Proof.
  induction 1 as [|a l A F IH]; intros s s' E; cbn [play] in E; [injection E as <-; apply Relation_Operators.rt_refl|]. destruct a as [| |c|c].
  - destruct (wstep s) as [s1| | |] eqn:W; try discriminate. cbn [bind] in E. eapply Relation_Operators.rt_trans; [apply Relation_Operators.rt_step; apply SW; exact W|apply IH; exact E].
  - destruct (rstep s) as [s1| | |] eqn:W; try discriminate. cbn [bind] in E. eapply Relation_Operators.rt_trans; [apply Relation_Operators.rt_step; apply SR; exact W|apply IH; exact E].
  - destruct (wp s) eqn:W; try discriminate. eapply Relation_Operators.rt_trans; [apply Relation_Operators.rt_step; apply SWCall; eassumption|apply IH; exact E].
  - destruct (rp s) eqn:W; try discriminate. eapply Relation_Operators.rt_trans; [apply Relation_Operators.rt_step; apply SRCall; eassumption|apply IH; exact E].
Qed.
