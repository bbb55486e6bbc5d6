(** Proofs for C73, part 4: the stream, messages, number of steps *)
From Verif Require Import MpliteProof2 MpliteProof6.
From Verif Require Import CBase SeqLib RingBuffer2Model RingBuffer2Proof FixedQueueModel RbMtModel RbMtSpec RbMtProof RbMtProof2 RbMtProof3.

Lemma ring_inv h : ring h -> rb_inv h /\ rb_in h = rb_out h.
Proof.
  intros (P & B & I & O). split; [|congruence]. split; [exact P|]. split; [exact B|]. rewrite O. change (2 ^ 32) with two32 in I. split; [exact I|]. split; [exact I|].
  unfold rb_avail_read. rewrite O, Z.sub_diag. destruct P as (j & J & ->). change (u32 0) with 0. apply Z.pow_nonneg. lia.
Qed.
Section P.
Variables (one : Z) (h : rb Z).
Hypothesis ONE : 1 <= one < two32.
Hypothesis RI : ring h.
Let c0 := rb_in h.
Lemma C0 : 0 <= c0. Proof. destruct RI as (_ & _ & X & _). unfold c0. lia. Qed.
Notation inv := (inv one c0).

Definition full s S k := inv s S k /\ csize s = rb_size h /\ agree (got one (log s)) (ztake (taken one (log s)) S) /\ (forall c, In (EWCall c) (log s) -> wok one c).
Lemma agree_len g b : agree g b -> zlen g = zlen b.
Proof. intro A. unfold zlen. f_equal. induction A; cbn; congruence. Qed.
Lemma agree_some l : agree (map Some l) l.
Proof. induction l; constructor; auto. Qed.
Lemma agree_none l : agree (repeat None (length l)) l.
Proof. induction l; constructor; auto. Qed.
Lemma agree_app a b a' b' : agree a b -> agree a' b' -> agree (a ++ a') (b ++ b').
Proof. intros. apply Forall2_app; assumption. Qed.
Lemma ztake_more n m (l : list Z) : 0 <= n -> 0 <= m -> ztake (n + m) l = ztake n l ++ ztake m (zdrop n l).
Proof.
  intros N M. rewrite <- (ztake_zdrop n (ztake (n + m) l)) at 1. rewrite ztake_ztake, Z.min_l by lia. f_equal. rewrite zdrop_ztake by lia. f_equal. lia.
Qed.
Lemma wstep_csize s s' : wstep one s = Ret s' -> csize s' = csize s /\ (got one (log s') = got one (log s)) /\ taken one (log s') = taken one (log s) /\ (forall c, In (EWCall c) (log s') -> In (EWCall c) (log s)).
Proof.
  unfold wstep. destruct (wp s) as [| |m|c|c n start i|c n]; intro H.
  - injection H as <-. auto.
  - injection H as <-. auto.
  - injection H as <-. auto.
  - destruct ((wsize one c =? 0) || (avail_write s =? 0)); injection H as <-; auto.
  - destruct (i <? n); [|injection H as <-; auto]. destruct (mload _ _); try discriminate. cbn [bind] in H. destruct (mstore _ _ _); try discriminate. cbn [bind] in H. injection H as <-. auto.
  - injection H as <-. cbn. repeat split; auto. intros c' [X|X]; [discriminate|exact X].
Qed.
Lemma rstep_full s s' S k k' : full s S k -> rstep one s = Ret s' -> inv s' S k' -> full s' S k'.
Proof.
  intros (I & CS & AG & WK) H I'. split; [exact I'|]. unfold rstep in H. pose proof (i_r _ _ _ _ _ I) as RR. unfold rinv in RR. destruct (rp s) as [| |t|c|c n start i t|c n t'] eqn:ER.
  - injection H as <-. auto.
  - injection H as <-. auto.
  - injection H as <-. auto.
  - destruct ((rsize one c =? 0) || (avail_read s =? 0)); injection H as <-; auto.
  - destruct (i <? n); [|destruct (is_peek c); injection H as <-; auto]. destruct (mload _ _); try discriminate. cbn [bind] in H. destruct (mstore _ _ _); try discriminate. cbn [bind] in H. injection H as <-. auto.
  - injection H as <-. cbn [csize log set_rp emit]. split; [exact CS|]. split; [|intros c' [X|X]; [discriminate|auto]]. cbn [got taken]. pose proof (rret_le one c0 ONE s S k c n t' I ER) as RL.
    destruct RR as ((OK1 & OK2) & k1 & K1 & K2 & K3). cbv zeta in K2, K3. pose proof (i_tk _ _ _ _ _ I) as TK. pose proof (i_rng _ _ _ _ _ I) as (R1 & R2).
    rewrite ztake_more by lia. apply agree_app; [exact AG|].
    assert (GET : forall m t0, 0 <= m -> m <= k1 - taken one (log s) -> ztake m (next one s S m ++ zdrop m t0) = ztake m (zdrop (taken one (log s)) S)).
    { intros m t0 M0 M1. unfold next. assert (L : zlen (ztake m (zdrop (taken one (log s)) S)) = m) by (apply zlen_ztake; rewrite zlen_zdrop by lia; lia). rewrite ztake_app_l by lia. apply ztake_all. lia. }
    destruct c as [t0 size|[t0|] size|size| |t0]; cbn [rbytes rsize] in *.
    + destruct K3 as (N & ->). cbn [gets]. rewrite GET by lia. apply agree_some.
    + cbn. destruct t'; constructor.
    + cbn. destruct t'; constructor.
    + destruct K3 as (N & ->). cbn [gets]. replace (Z.to_nat n) with (length (ztake n (zdrop (taken one (log s)) S))); [apply agree_none|].
      assert (L : zlen (ztake n (zdrop (taken one (log s)) S)) = n) by (apply zlen_ztake; rewrite zlen_zdrop by lia; lia). unfold zlen in L. lia.
    + cbn. destruct t'; constructor.
    + destruct (Z.leb_spec one (k1 - taken one (log s))); destruct K3 as (-> & ->); cbn [gets]; [|constructor]. cbn [Z.eqb]. change (1 =? 1) with true. cbv iota. rewrite GET by lia. apply agree_some.
Qed.
Lemma step_full s S k s' : full s S k -> step one s s' -> exists S' k', full s' S' k'.
Proof.
  intros F H. pose proof F as (I & CS & AG & WK). destruct H as [s s' H|s s' H|s c E OK|s c E OK].
  - destruct (wstep_inv one c0 ONE C0 s S k I) as (s1 & X & H1 & I1). rewrite H in H1. injection H1 as <-. destruct (wstep_csize s s' H) as (E1 & E2 & E3 & E4). exists (S ++ X), k. split; [exact I1|]. split; [congruence|]. split; [|auto].
    rewrite E2, E3. pose proof (i_tk _ _ _ _ _ I). pose proof (taken_le one c0 ONE s S k I). pose proof (i_rng _ _ _ _ _ I). rewrite ztake_app_l by lia. exact AG.
  - destruct (rstep_inv one c0 ONE C0 s S k I) as (s1 & k' & H1 & I1). rewrite H in H1. injection H1 as <-. exists S, k'. eapply rstep_full; eassumption.
  - exists S, k. split; [apply wcall_inv; auto|]. split; [exact CS|]. split; [exact AG|]. intros c' [X|X]; [injection X as <-; exact OK|auto].
  - exists S, k. split; [apply rcall_inv; auto|]. split; [exact CS|]. split; [exact AG|]. intros c' [X|X]; [discriminate|auto].
Qed.
Lemma reach_full s : reach one h s -> exists S k, full s S k.
Proof.
  destruct (ring_inv h RI) as (RV & E). induction 1 as [|s s' R IH ST].
  - destruct (reach_inv one h (boot h) ONE RV E (R0 one h)) as (S & k & I). exists S, k. split; [exact I|]. split; [reflexivity|]. split; [cbn; constructor|]. intros c [].
  - destruct IH as (S & k & F). eapply step_full; eassumption.
Qed.

(** ** number of steps *)
Definition wleft (p : wpc) : Z := match p with WIdle => 0 | WSpaceAt => 2 | WFull _ => one + 4 | WAvail c => wsize one c + 3 | WCopy _ n _ i => n - i + 2 | WRet _ _ => 1 end.
Definition rleft (p : rpc) : Z := match p with RIdle => 0 | RAvailAt => 2 | REmpty _ => one + 4 | RFetch c => rsize one c + 3 | RCopy _ n _ i _ => n - i + 2 | RRet _ _ _ => 1 end.
Lemma wleft_step s S k s' : inv s S k -> wp s <> WIdle -> wstep one s = Ret s' -> 0 <= wleft (wp s') < wleft (wp s).
Proof.
  intros I NI H. pose proof (i_w _ _ _ _ _ I) as W. unfold winv in W. unfold wstep in H. destruct (wp s) as [| |m|c|c n start i|c n] eqn:EW; try congruence.
  - injection H as <-. cbn. lia.
  - clear W. destruct (0 =? avail_write s / one); injection H as <-; cbn [set_wp wp wleft wsize]; lia.
  - destruct W as ((W & _) & _). destruct (wsize one c =? 0) eqn:Q1; [injection H as <-; cbn [orb set_wp wp wleft]; lia|]. cbn [orb] in H. destruct (avail_write s =? 0) eqn:Q2; injection H as <-; cbn [set_wp wp wleft]; [lia|].
    rewrite take_min_eq. pose proof (u32_range (csize s - avail_read s)). unfold avail_write in *. lia.
  - destruct W as (_ & _ & _ & Hi & _). destruct (i <? n) eqn:Q; [|injection H as <-; cbn; lia]. destruct (mload _ _); try discriminate. cbn [bind] in H. destruct (mstore _ _ _); try discriminate. cbn [bind] in H. injection H as <-. cbn. lia.
  - injection H as <-. cbn. lia.
Qed.
Lemma rleft_step s S k s' : inv s S k -> rp s <> RIdle -> rstep one s = Ret s' -> 0 <= rleft (rp s') < rleft (rp s).
Proof.
  intros I NI H. pose proof (i_r _ _ _ _ _ I) as W. unfold rinv in W. unfold rstep in H. destruct (rp s) as [| |t|c|c n start i t|c n t'] eqn:EW; try congruence.
  - injection H as <-. cbn. lia.
  - clear W. destruct (0 =? avail_read s / one); injection H as <-; cbn [set_rp rp rleft rsize]; lia.
  - destruct W as ((W & _) & _). destruct (rsize one c =? 0) eqn:Q1; [injection H as <-; cbn [orb set_rp rp rleft]; lia|]. cbn [orb] in H. destruct (avail_read s =? 0) eqn:Q2; injection H as <-; cbn [set_rp rp rleft]; [lia|].
    rewrite take_min_eq. pose proof (u32_range (cin s - cout s)). unfold avail_read in *. destruct (rtgt c); lia.
  - destruct W as (_ & _ & _ & Hi & _). destruct (i <? n) eqn:Q; [|destruct (is_peek c); injection H as <-; cbn; lia]. destruct (mload _ _); try discriminate. cbn [bind] in H. destruct (mstore _ _ _); try discriminate. cbn [bind] in H. injection H as <-. cbn. lia.
  - injection H as <-. cbn. lia.
Qed.
Lemma wleft_nonneg s S k : inv s S k -> 0 <= wleft (wp s).
Proof. intro I. pose proof (i_w _ _ _ _ _ I) as W. unfold winv in W. destruct (wp s) as [| |m|c|c n start i|c n]; cbn; try lia; try (destruct W as ((W & _) & _); lia). Qed.
Lemma rleft_nonneg s S k : inv s S k -> 0 <= rleft (rp s).
Proof. intro I. pose proof (i_r _ _ _ _ _ I) as W. unfold rinv in W. destruct (rp s) as [| |t|c|c n start i t|c n t']; cbn; try lia; try (destruct W as ((W & _) & _); lia). Qed.
Lemma wrun_bound n s s' : wrun one n s s' -> forall S k, inv s S k -> Z.of_nat n <= wleft (wp s).
Proof.
  induction 1 as [s|n s s1 s2 NI ST R IH|n s s1 s2 ST E R IH]; intros S k I.
  - pose proof (wleft_nonneg s S k I). lia.
  - destruct (wleft_step s S k s1 I NI ST) as (L1 & L2). destruct (wstep_inv one c0 ONE C0 s S k I) as (s3 & X & H1 & I1). rewrite ST in H1. injection H1 as <-. specialize (IH _ _ I1). lia.
  - destruct (step_inv one c0 ONE C0 s S k s1 I ST) as (S' & k' & I1). specialize (IH _ _ I1). rewrite E in IH. exact IH.
Qed.
Lemma rrun_bound n s s' : rrun one n s s' -> forall S k, inv s S k -> Z.of_nat n <= rleft (rp s).
Proof.
  induction 1 as [s|n s s1 s2 NI ST R IH|n s s1 s2 ST E R IH]; intros S k I.
  - pose proof (rleft_nonneg s S k I). lia.
  - destruct (rleft_step s S k s1 I NI ST) as (L1 & L2). destruct (rstep_inv one c0 ONE C0 s S k I) as (s3 & X & H1 & I1). rewrite ST in H1. injection H1 as <-. specialize (IH _ _ I1). lia.
  - destruct (step_inv one c0 ONE C0 s S k s1 I ST) as (S' & k' & I1). specialize (IH _ _ I1). rewrite E in IH. exact IH.
Qed.

(** ** messages *)
Lemma wopen_call l c : wopen l = Some c -> In (EWCall c) l.
Proof. induction l as [|e l IH]; cbn; [discriminate|]. destruct e as [c'|c' n|c'|c' n t]; intro H; [injection H as ->; left; reflexivity|discriminate|right; auto|right; auto]. Qed.
Lemma queue_wrote l cap : queue_only l -> evs_ok one cap l -> (forall c, In (EWCall c) l -> wok one c) -> wrote one l = concat (accepted one l) /\ Forall (fun m => zlen m = one) (accepted one l).
Proof.
  induction l as [|e l IH]; intros Q E W; [split; [reflexivity|constructor]|]. inversion Q as [|? ? Q1 Q2]; subst. destruct E as (E1 & E2). destruct (IH Q2 E2 (fun c X => W c (or_intror X))) as (A & B).
  destruct e as [c|c n|c|c n t]; cbn [wrote accepted]; auto. destruct c as [s0 size| |s0]; try contradiction. destruct E1 as (O & _). apply wopen_call in O. destruct (W _ (or_intror O)) as (_ & L). cbn [wsize wsrc] in L.
  cbn [wbytes msg]. destruct (n =? 1); [|rewrite !app_nil_r; auto]. rewrite concat_app, A. cbn. rewrite app_nil_r. split; [reflexivity|]. apply Forall_app. split; [exact B|]. constructor; [apply zlen_ztake; lia|constructor].
Qed.
Lemma queue_taken l : queue_only l -> 0 <= taken one l.
Proof.
  induction 1 as [|e l Q1 Q2 IH]; cbn [taken]; [lia|]. destruct e as [c|c n|c|c n t]; auto. destruct c; try contradiction. cbn [rbytes]. destruct (n =? 1); lia.
Qed.
Lemma queue_got l cap : queue_only l -> evs_ok one cap l -> got one l = map Some (concat (popped one l)) /\ Forall (fun m => zlen m = one) (popped one l).
Proof.
  induction l as [|e l IH]; intros Q E; [split; [reflexivity|constructor]|]. inversion Q as [|? ? Q1 Q2]; subst. destruct E as (E1 & E2). destruct (IH Q2 E2) as (A & B).
  destruct e as [c|c n|c|c n t']; cbn [got popped]; auto. destruct c as [t0 size|t0 size|size| |t0]; try contradiction. destruct E1 as (_ & k1 & K1 & K2 & K3). cbv zeta in K2, K3.
  destruct (Z.leb_spec one (k1 - taken one l)); destruct K3 as (-> & ->); cbn [gets]; [|change (0 =? 1) with false; cbv iota; rewrite !app_nil_r; auto].
  change (1 =? 1) with true. cbv iota. rewrite concat_app, map_app, A. cbn [concat]. rewrite app_nil_r. split; [reflexivity|]. apply Forall_app. split; [exact B|]. constructor; [|constructor].
  apply zlen_ztake. rewrite zlen_app. pose proof (zlen_nonneg (zdrop one t0)). assert (T0 : taken one l <= zlen (offered one l)) by lia.
  assert (L : zlen (ztake one (zdrop (taken one l) (offered one l))) = one); [|lia]. pose proof (queue_taken l Q2). apply zlen_ztake. rewrite zlen_zdrop by lia. lia.
Qed.
Lemma concat_prefix (a : list (list Z)) : Forall (fun m => zlen m = one) a -> forall b X, Forall (fun m => zlen m = one) b -> concat b = concat a ++ X -> exists c, b = a ++ c.
Proof.
  induction 1 as [|m a M A IH]; intros b X B E; [exists b; reflexivity|]. cbn [concat] in E. destruct B as [|m' b M' B].
  - exfalso. cbn in E. apply (f_equal (@zlen Z)) in E. rewrite !zlen_app in E. change (zlen (@nil Z)) with 0 in E. pose proof (zlen_nonneg (concat a)). pose proof (zlen_nonneg X). lia.
  - cbn [concat] in E. rewrite <- app_assoc in E. assert (m' = m /\ concat b = concat a ++ X) as (-> & E').
    { split.
      - apply (f_equal (ztake one)) in E. rewrite <- M' in E at 1. rewrite ztake_app_len in E. rewrite <- M in E. rewrite ztake_app_len in E. exact E.
      - apply (f_equal (zdrop one)) in E. rewrite <- M' in E at 1. rewrite zdrop_app_len in E. rewrite <- M in E. rewrite zdrop_app_len in E. exact E. }
    destruct (IH b X B E') as (c & ->). exists c. reflexivity.
Qed.
Lemma agree_map a b : agree (map Some a) b -> a = b.
Proof. revert b. induction a as [|x a IH]; intros b H; inversion H as [|? ? ? ? E A]; subst; [reflexivity|]. destruct E as [E|E]; [discriminate|]. injection E as <-. f_equal. apply IH. exact A. Qed.
End P.
