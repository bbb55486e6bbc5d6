(** Proofs for C80, part 3: the theorems *)
From Verif Require Import MpliteProof2 MpliteProof6.
From Verif Require Import CBase SeqLib RingBuffer2Model RingBuffer2Proof FixedQueueModel RbMtModel RbMtSpec RbMtProof RbMtProof4 RbTsoModel RbTsoSpec RbTsoProof RbTsoProof2.
Section P.
Variables (one : Z) (h : rb Z).
Hypothesis ONE : 1 <= one < two32.
Hypothesis RI : ring h.
Let c0 := rb_in h.
Let C0 : 0 <= c0 := C0 h RI.
Notation tinv := (tinv one c0).
Definition tfull s S k p q := tinv s S k p q /\ t_size s = rb_size h /\ agree (got one (plain (t_log s))) (ztake (taken one (plain (t_log s))) S) /\ (forall c, In (EWCall c) (plain (t_log s)) -> wok one c).
Lemma tagree_more s S k p q X : tinv s S k p q -> agree (got one (plain (t_log s))) (ztake (taken one (plain (t_log s))) S) -> agree (got one (plain (t_log s))) (ztake (taken one (plain (t_log s))) (S ++ X)).
Proof. intros I AG. pose proof (v_tk _ _ _ _ _ _ _ I). pose proof (ttaken_le _ _ ONE s S k p q I). pose proof (v_rng _ _ _ _ _ _ _ I). rewrite ztake_app_l by lia. exact AG. Qed.
Lemma twstep_same s s' : twstep one s = Ret s' -> t_size s' = t_size s /\ got one (plain (t_log s')) = got one (plain (t_log s)) /\ taken one (plain (t_log s')) = taken one (plain (t_log s)) /\ (forall c, In (EWCall c) (plain (t_log s')) -> In (EWCall c) (plain (t_log s))).
Proof.
  unfold twstep. destruct (t_wp s) as [| |m|c|c n start i|c n]; intro H.
  - injection H as <-. auto.
  - injection H as <-. auto.
  - injection H as <-. auto.
  - destruct ((wsize one c =? 0) || (room s =? 0)); injection H as <-; auto.
  - destruct (i <? n); [|injection H as <-; auto]. destruct (mload _ _); try discriminate. cbn [bind] in H. injection H as <-. auto.
  - injection H as <-. cbn. repeat split; auto. intros c' [X|X]; [discriminate|exact X].
Qed.
Lemma trstep_full s s' S k k' p q : tfull s S k p q -> trstep one s = Ret s' -> tinv s' S k' p q -> tfull s' S k' p q.
Proof.
  intros (I & CS & AG & WK) H I'. split; [exact I'|]. unfold trstep in H. pose proof (v_r _ _ _ _ _ _ _ I) as RR. unfold trinv in RR. destruct (t_rp s) as [| |t|c|c n start i t|c n t'] eqn:ER.
  - injection H as <-. auto.
  - injection H as <-. auto.
  - injection H as <-. auto.
  - destruct ((rsize one c =? 0) || (stored s =? 0)); injection H as <-; auto.
  - destruct (i <? n); [|destruct (is_peek c); injection H as <-; auto]. destruct (mload _ _); try discriminate. cbn [bind] in H. destruct (mstore _ _ _); try discriminate. cbn [bind] in H. injection H as <-. auto.
  - injection H as <-. cbn [t_size t_log tset_rp temit]. split; [exact CS|]. change (plain (E (ERRet c n t') :: t_log s)) with (ERRet c n t' :: plain (t_log s)). split; [|intros c' [X|X]; [discriminate|auto]]. cbn [got taken]. pose proof (trret_le one c0 ONE s S k p q c n t' I ER) as RL.
    destruct RR as ((OK1 & OK2) & k1 & K1 & K2 & K3). unfold answer in K3. pose proof (v_tk _ _ _ _ _ _ _ I) as TK. pose proof (v_rng _ _ _ _ _ _ _ I) as (R1 & R2 & R3).
    set (TL := taken one (plain (t_log s))) in *.
    rewrite (ztake_more h) by lia. apply agree_app; [exact AG|].
    assert (GET : forall m t0, 0 <= m -> m <= k1 - TL -> ztake m (tnext one s S m ++ zdrop m t0) = ztake m (zdrop TL S)).
    { intros m t0 M0 M1. unfold tnext. fold TL. assert (L : zlen (ztake m (zdrop TL S)) = m) by (apply zlen_ztake; rewrite zlen_zdrop by lia; lia). rewrite ztake_app_l by lia. apply ztake_all. lia. }
    destruct c as [t0 size|[t0|] size|size| |t0]; cbn [rbytes rsize] in *.
    + destruct K3 as (N & ->). cbn [gets]. rewrite GET by lia. apply agree_some.
    + cbn. destruct t'; constructor.
    + cbn. destruct t'; constructor.
    + destruct K3 as (N & ->). cbn [gets]. replace (Z.to_nat n) with (length (ztake n (zdrop TL S))); [apply agree_none|].
      assert (L : zlen (ztake n (zdrop TL S)) = n) by (apply zlen_ztake; rewrite zlen_zdrop by lia; lia). unfold zlen in L. lia.
    + cbn. destruct t'; constructor.
    + destruct (Z.leb_spec one (k1 - TL)); destruct K3 as (-> & ->); cbn [gets]; [|constructor]. cbn [Z.eqb]. change (1 =? 1) with true. cbv iota. rewrite GET by lia. apply agree_some.
Qed.
Lemma commit_same s e s' : commit s e = Ret s' -> t_size s' = t_size s /\ t_log s' = t_log s /\ t_wp s' = t_wp s.
Proof. destruct e; cbn [commit]; [destruct (mstore _ _ _); try discriminate; cbn [bind]|]; intro H; injection H as <-; auto. Qed.
Lemma tstep_full s S k p q s' : tfull s S k p q -> tstep one false s s' -> exists S' k' p' q', tfull s' S' k' p' q'.
Proof.
  intros F H. pose proof F as (I & CS & AG & WK). destruct H as [s s' H|s s' H|s c EE OK|s c EE OK|s s' a e b EB O SP C|s x b EB|s EW EB|s EW EB].
  - destruct (twstep_inv one c0 ONE C0 s S k p q I) as (s1 & X & H1 & I1). rewrite H in H1. injection H1 as <-. destruct (twstep_same s s' H) as (E1 & E2 & E3 & E4). exists (S ++ X), k, p, q. split; [exact I1|]. split; [congruence|]. split; [|auto].
    rewrite E2, E3. eapply tagree_more; eassumption.
  - destruct (trstep_inv one c0 ONE C0 s S k p q I) as (s1 & k' & H1 & I1). rewrite H in H1. injection H1 as <-. exists S, k', p, q. exact (trstep_full s s' S k k' p q F H I1).
  - exists S, k, p, q. split; [apply twcall_inv; auto|]. split; [exact CS|]. split; [exact AG|]. intros c' [X|X]; [injection X as <-; exact OK|auto].
  - exists S, k, p, q. split; [apply trcall_inv; auto|]. split; [exact CS|]. split; [exact AG|]. intros c' [X|X]; [discriminate|auto].
  - destruct O as [O| ->]; [discriminate|]. cbn [app] in *. destruct (twflush_inv one c0 s S k p q e b I EB) as (s1 & p' & H1 & I1). rewrite C in H1. injection H1 as <-. exists S, k, p', q. split; [exact I1|]. destruct (commit_same _ _ _ C) as (E1 & E2 & _). rewrite E1, E2. auto.
  - destruct (trflush_inv one c0 s S k p q x b I EB) as (q' & I1). exists S, k, p, q'. split; [exact I1|]. auto.
  - exists S, k, p, q. split; [apply twsync_inv; auto|]. auto.
  - exists S, k, p, q. split; [apply trsync_inv; auto|]. auto.
Qed.
Lemma treach_full s : treach one false h s -> exists S k p q, tfull s S k p q.
Proof.
  induction 1 as [|s s' R IH ST].
  - exists [], 0, 0, 0. destruct RI as (P & B & W & EE). change (2 ^ 32) with two32 in W. split; [|split; [reflexivity|split; [constructor|intros c []]]].
    assert (M0 : rb_in h = u32 (c0 + 0)) by (rewrite Z.add_0_r, u32_small; auto). pose proof (pow2_bound _ P).
    split; cbn [t_size t_mem t_in t_out t_log t_wp t_rp t_wbuf t_rbuf tboot]; auto; try exact Logic.I; try reflexivity; try (cbn; lia).
    + change (zlen (@nil Z)) with 0. lia.
    + cbn [good]. split; [reflexivity|]. split; [exact B|exact Logic.I].
  - destruct IH as (S & k & p & q & F). exact (tstep_full s S k p q s' F ST).
Qed.
Lemma tno_fault s : treach one false h s -> (exists s', twstep one s = Ret s') /\ (exists s', trstep one s = Ret s') /\ (forall e b, t_wbuf s = e :: b -> exists s', commit (tset_wbuf s b) e = Ret s').
Proof.
  intro R. destruct (treach_full s R) as (S & k & p & q & I & _). split; [|split].
  - destruct (twstep_inv one c0 ONE C0 s S k p q I) as (s' & X & H & _). eauto.
  - destruct (trstep_inv one c0 ONE C0 s S k p q I) as (s' & X & H & _). eauto.
  - intros e b EB. destruct (twflush_inv one c0 s S k p q e b I EB) as (s' & X & H & _). eauto.
Qed.
Lemma tevery_answer s later e earlier : treach one false h s -> t_log s = later ++ e :: earlier -> tev_ok one (rb_size h) e earlier.
Proof.
  intros R EE. destruct (treach_full s R) as (S & k & p & q & I & CS & _). pose proof (v_evs _ _ _ _ _ _ _ I) as EV. rewrite CS, EE in EV. clear - EV. induction later as [|x l IH]; cbn [app tevs_ok] in EV; tauto.
Qed.
Lemma tstream s : treach one false h s -> let l := plain (t_log s) in exists S, prefix (wrote one l) S /\ prefix S (offered one l) /\ agree (got one l) (ztake (zlen (got one l)) S).
Proof.
  intro R. destruct (treach_full s R) as (S & k & p & q & I & CS & AG & _). exists S. split; [eexists; exact (v_wrote _ _ _ _ _ _ _ I)|]. split; [exact (tprefix_offered _ _ s S k p q I)|].
  pose proof (agree_len _ _ AG) as L. pose proof (v_tk _ _ _ _ _ _ _ I). pose proof (ttaken_le _ _ ONE s S k p q I). pose proof (v_rng _ _ _ _ _ _ _ I). rewrite zlen_ztake in L by lia. rewrite L. exact AG.
Qed.
(** ** messages *)
Lemma tqueue_wrote cap l : queue_only (plain l) -> tevs_ok one cap l -> (forall c, In (EWCall c) (plain l) -> wok one c) -> wrote one (plain l) = concat (accepted one (plain l)) /\ Forall (fun m => zlen m = one) (accepted one (plain l)).
Proof.
  induction l as [|e0 l IH]; intros Q EV W; [split; [reflexivity|constructor]|]. destruct EV as (E1 & E2). destruct e0 as [e| |]; [|exact (IH Q E2 W)|exact (IH Q E2 W)].
  change (plain (E e :: l)) with (e :: plain l) in *. inversion Q as [|? ? Q1 Q2]; subst. destruct (IH Q2 E2 (fun c X => W c (or_intror X))) as (A & B).
  destruct e as [c|c n|c|c n t]; cbn [wrote accepted]; auto. destruct c as [s0 size| |s0]; try contradiction. destruct E1 as (O & _). apply wopen_call in O. destruct (W _ (or_intror O)) as (_ & L). cbn [wsize wsrc] in L.
  cbn [wbytes msg]. destruct (n =? 1); [|rewrite !app_nil_r; auto]. rewrite concat_app, A. cbn. rewrite app_nil_r. split; [reflexivity|]. apply Forall_app. split; [exact B|]. constructor; [apply zlen_ztake; lia|constructor].
Qed.
Lemma tqueue_got cap l : queue_only (plain l) -> tevs_ok one cap l -> got one (plain l) = map Some (concat (popped one (plain l))) /\ Forall (fun m => zlen m = one) (popped one (plain l)).
Proof.
  induction l as [|e0 l IH]; intros Q EV; [split; [reflexivity|constructor]|]. destruct EV as (E1 & E2). destruct e0 as [e| |]; [|exact (IH Q E2)|exact (IH Q E2)].
  change (plain (E e :: l)) with (e :: plain l) in *. inversion Q as [|? ? Q1 Q2]; subst. destruct (IH Q2 E2) as (A & B).
  destruct e as [c|c n|c|c n t']; cbn [got popped]; auto. destruct c as [t0 size|t0 size|size| |t0]; try contradiction. destruct E1 as (_ & k1 & K1 & K2 & K3). cbv zeta in K2, K3.
  destruct (Z.leb_spec one (k1 - taken one (plain l))); destruct K3 as (-> & ->); cbn [gets]; [|change (0 =? 1) with false; cbv iota; rewrite !app_nil_r; auto].
  change (1 =? 1) with true. cbv iota. rewrite concat_app, map_app, A. cbn [concat]. rewrite app_nil_r. split; [reflexivity|]. apply Forall_app. split; [exact B|]. constructor; [|constructor].
  apply zlen_ztake. rewrite zlen_app. pose proof (zlen_nonneg (zdrop one t0)). assert (T0 : taken one (plain l) <= zlen (offered one (plain l))) by lia.
  assert (L : zlen (ztake one (zdrop (taken one (plain l)) (offered one (plain l)))) = one); [|lia]. pose proof (queue_taken one h ONE (plain l) Q2). apply zlen_ztake. rewrite zlen_zdrop by lia. lia.
Qed.
Lemma tmessages s : treach one false h s -> let l := plain (t_log s) in queue_only l -> prefix (popped one l) (sent one l).
Proof.
  intros R l Q. subst l. destruct (treach_full s R) as (S & k & p & q & I & CS & AG & WK). pose proof (v_evs _ _ _ _ _ _ _ I) as EV.
  destruct (tqueue_wrote _ _ Q EV WK) as (A & B). destruct (tqueue_got _ _ Q EV) as (C & D).
  destruct (tprefix_offered one _ s S k p q I) as (X & O). rewrite C in AG. apply agree_map in AG.
  assert (O2 : offered one (plain (t_log s)) = concat (sent one (plain (t_log s))) /\ Forall (fun m => zlen m = one) (sent one (plain (t_log s)))).
  { unfold offered, sent. rewrite A, concat_app. destruct (wopen (plain (t_log s))) as [c|] eqn:W; [|cbn; rewrite !app_nil_r; auto]. pose proof (wopen_call _ _ W) as IC. destruct (WK _ IC) as (_ & L).
    assert (exists m, c = WPush m) as (m & ->). { apply (proj1 (Forall_forall _ _) Q) in IC. destruct c; try contradiction. eauto. }
    cbn [msg wsize wsrc] in *. cbn. rewrite app_nil_r. split; [reflexivity|]. apply Forall_app. split; [exact B|]. constructor; [apply zlen_ztake; lia|constructor]. }
  destruct O2 as (O2 & F2). apply (concat_prefix one h ONE _ D _ (zdrop (taken one (plain (t_log s))) S ++ X) F2).
  rewrite <- O2, O, AG, app_assoc. f_equal. symmetry. apply ztake_zdrop.
Qed.
(** ** number of steps *)
Notation wleft := (wleft one).
Notation rleft := (rleft one).
Lemma twleft_step s S k p q s' : tinv s S k p q -> t_wp s <> WIdle -> twstep one s = Ret s' -> 0 <= wleft (t_wp s') < wleft (t_wp s).
Proof.
  intros I NI H. pose proof (v_w _ _ _ _ _ _ _ I) as W. unfold twinv in W. unfold twstep in H. destruct (t_wp s) as [| |m|c|c n start i|c n] eqn:EW; try congruence.
  - injection H as <-. cbn. lia.
  - clear W. destruct (0 =? room s / one); injection H as <-; cbn [tset_wp t_wp RbMtProof4.wleft wsize]; lia.
  - destruct W as ((W & _) & _). destruct (wsize one c =? 0) eqn:Q1; [injection H as <-; cbn [orb tset_wp t_wp RbMtProof4.wleft]; lia|]. cbn [orb] in H. destruct (room s =? 0) eqn:Q2; injection H as <-; cbn [tset_wp t_wp RbMtProof4.wleft]; [lia|].
    rewrite take_min_eq. pose proof (u32_range (t_size s - u32 (own_in s - t_out s))). unfold room in *. lia.
  - destruct W as (_ & _ & _ & Hi & _). destruct (i <? n) eqn:Q; [|injection H as <-; cbn; lia]. destruct (mload _ _); try discriminate. cbn [bind] in H. injection H as <-. cbn [tset_wp t_wp RbMtProof4.wleft]. lia.
  - injection H as <-. cbn. lia.
Qed.
Lemma trleft_step s S k p q s' : tinv s S k p q -> t_rp s <> RIdle -> trstep one s = Ret s' -> 0 <= rleft (t_rp s') < rleft (t_rp s).
Proof.
  intros I NI H. pose proof (v_r _ _ _ _ _ _ _ I) as W. unfold trinv in W. unfold trstep in H. destruct (t_rp s) as [| |t|c|c n start i t|c n t'] eqn:EW; try congruence.
  - injection H as <-. cbn. lia.
  - clear W. destruct (0 =? stored s / one); injection H as <-; cbn [tset_rp t_rp RbMtProof4.rleft rsize]; lia.
  - destruct W as ((W & _) & _). destruct (rsize one c =? 0) eqn:Q1; [injection H as <-; cbn [orb tset_rp t_rp RbMtProof4.rleft]; lia|]. cbn [orb] in H. destruct (stored s =? 0) eqn:Q2; injection H as <-; cbn [tset_rp t_rp RbMtProof4.rleft]; [lia|].
    rewrite take_min_eq. pose proof (u32_range (t_in s - own_out s)). unfold stored in *. destruct (rtgt c); lia.
  - destruct W as (_ & _ & _ & Hi & _). destruct (i <? n) eqn:Q; [|destruct (is_peek c); injection H as <-; cbn; lia]. destruct (mload _ _); try discriminate. cbn [bind] in H. destruct (mstore _ _ _); try discriminate. cbn [bind] in H. injection H as <-. cbn [tset_rp t_rp RbMtProof4.rleft]. lia.
  - injection H as <-. cbn. lia.
Qed.
Lemma twleft_nonneg s S k p q : tinv s S k p q -> 0 <= wleft (t_wp s).
Proof. intro I. pose proof (v_w _ _ _ _ _ _ _ I) as W. unfold twinv in W. destruct (t_wp s) as [| |m|c|c n start i|c n]; cbn; try lia; try (destruct W as ((W & _) & _); lia). Qed.
Lemma trleft_nonneg s S k p q : tinv s S k p q -> 0 <= rleft (t_rp s).
Proof. intro I. pose proof (v_r _ _ _ _ _ _ _ I) as W. unfold trinv in W. destruct (t_rp s) as [| |t|c|c n start i t|c n t']; cbn; try lia; try (destruct W as ((W & _) & _); lia). Qed.
Lemma twrun_bound n s s' : twrun one false n s s' -> forall S k p q, tinv s S k p q -> Z.of_nat n <= wleft (t_wp s).
Proof.
  induction 1 as [s|n s s1 s2 NI ST R IH|n s s1 s2 ST EE R IH]; intros S k p q I.
  - pose proof (twleft_nonneg s S k p q I). lia.
  - destruct (twleft_step s S k p q s1 I NI ST) as (L1 & L2). destruct (twstep_inv one c0 ONE C0 s S k p q I) as (s3 & X & H1 & I1). rewrite ST in H1. injection H1 as <-. specialize (IH _ _ _ _ I1). lia.
  - destruct (tstep_inv one c0 ONE C0 s S k p q s1 I ST) as (S' & k' & p' & q' & I1). specialize (IH _ _ _ _ I1). rewrite EE in IH. exact IH.
Qed.
Lemma trrun_bound n s s' : trrun one false n s s' -> forall S k p q, tinv s S k p q -> Z.of_nat n <= rleft (t_rp s).
Proof.
  induction 1 as [s|n s s1 s2 NI ST R IH|n s s1 s2 ST EE R IH]; intros S k p q I.
  - pose proof (trleft_nonneg s S k p q I). lia.
  - destruct (trleft_step s S k p q s1 I NI ST) as (L1 & L2). destruct (trstep_inv one c0 ONE C0 s S k p q I) as (s3 & X & H1 & I1). rewrite ST in H1. injection H1 as <-. specialize (IH _ _ _ _ I1). lia.
  - destruct (tstep_inv one c0 ONE C0 s S k p q s1 I ST) as (S' & k' & p' & q' & I1). specialize (IH _ _ _ _ I1). rewrite EE in IH. exact IH.
Qed.
Lemma twait_free_w s c n s' : treach one false h s -> t_wp s = WIdle -> wok one c -> twrun one false n (tset_wp (temit s (E (EWCall c))) (wbegin c)) s' ->
  Z.of_nat n <= match c with WWrite _ len => len + 3 | WSpace => 2 | WPush _ => one + 4 end.
Proof.
  intros R EE OK W. assert (R' : treach one false h (tset_wp (temit s (E (EWCall c))) (wbegin c))) by (eapply TS; [exact R|constructor; auto]).
  destruct (treach_full _ R') as (S & k & p & q & I & _). pose proof (twrun_bound n _ _ W S k p q I) as B. destruct c; exact B.
Qed.
Lemma twait_free_r s c n s' : treach one false h s -> t_rp s = RIdle -> rok one c -> trrun one false n (tset_rp (temit s (E (ERCall c))) (rbegin c)) s' ->
  Z.of_nat n <= match c with RRead _ len | RPeek _ len | RDiscard len => len + 3 | RAvail => 2 | RPop _ => one + 4 end.
Proof.
  intros R EE OK W. assert (R' : treach one false h (tset_rp (temit s (E (ERCall c))) (rbegin c))) by (eapply TS; [exact R|constructor; auto]).
  destruct (treach_full _ R') as (S & k & p & q & I & _). pose proof (trrun_bound n _ _ W S k p q I) as B. destruct c; exact B.
Qed.
End P.

(** ** runs for the examples *)
Inductive act := AW | AR | AWC (c : wcall) | ARC (c : rcall) | FW (n : nat) | FR | SW | SR.
Definition tplay1 (one : Z) (o : bool) (a : act) (s : tst) : outcome tst :=
  match a with
  | AW => twstep one s
  | AR => trstep one s
  | AWC c => match t_wp s with WIdle => Ret (tset_wp (temit s (E (EWCall c))) (wbegin c)) | _ => Ub end
  | ARC c => match t_rp s with RIdle => Ret (tset_rp (temit s (E (ERCall c))) (rbegin c)) | _ => Ub end
  | FW n =>
      match skipn n (t_wbuf s) with
      | e :: b => if (o || (Nat.eqb n 0)) && forallb (fun x => negb (same_place x e)) (firstn n (t_wbuf s)) then commit (tset_wbuf s (firstn n (t_wbuf s) ++ b)) e else Ub
      | [] => Ub
      end
  | FR => match t_rbuf s with x :: b => Ret (tset_rbuf (tset_out s x) b) | [] => Ub end
  | SW => match t_wp s, t_wbuf s with WIdle, [] => Ret (temit s WSync) | _, _ => Ub end
  | SR => match t_rp s, t_rbuf s with RIdle, [] => Ret (temit s RSync) | _, _ => Ub end
  end.
Fixpoint tplay (one : Z) (o : bool) (l : list act) (s : tst) : outcome tst := match l with [] => Ret s | a :: l => do s <- tplay1 one o a s; tplay one o l s end.
Definition act_ok (one : Z) (a : act) : Prop := match a with AWC c => wok one c | ARC c => rok one c | _ => True end.
Lemma tplay1_step one o a s s' : act_ok one a -> tplay1 one o a s = Ret s' -> tstep one o s s'.
Proof.
  intros A H. destruct a as [| |c|c|n| | |]; cbn [tplay1] in H.
  - apply TW; exact H.
  - apply TR; exact H.
  - destruct (t_wp s) eqn:W; try discriminate. injection H as <-. apply TWCall; auto.
  - destruct (t_rp s) eqn:W; try discriminate. injection H as <-. apply TRCall; auto.
  - destruct (skipn n (t_wbuf s)) as [|e b] eqn:SK; try discriminate.
    destruct ((o || Nat.eqb n 0) && forallb (fun x => negb (same_place x e)) (firstn n (t_wbuf s))) eqn:Q; try discriminate. apply andb_true_iff in Q. destruct Q as (Q1 & Q2).
    apply (TWFlush one o s s' (firstn n (t_wbuf s)) e b); auto.
    + rewrite <- SK. symmetry. apply firstn_skipn.
    + apply orb_true_iff in Q1. destruct Q1 as [Q1|Q1]; [left; exact Q1|right]. apply Nat.eqb_eq in Q1. subst n. reflexivity.
  - destruct (t_rbuf s) as [|x b] eqn:B; try discriminate. injection H as <-. apply TRFlush. exact B.
  - destruct (t_wp s) eqn:W; try discriminate. destruct (t_wbuf s) eqn:B; try discriminate. injection H as <-. apply TWSync; auto.
  - destruct (t_rp s) eqn:W; try discriminate. destruct (t_rbuf s) eqn:B; try discriminate. injection H as <-. apply TRSync; auto.
Qed.
Lemma tplay_reach one o h l : Forall (act_ok one) l -> forall s s', treach one o h s -> tplay one o l s = Ret s' -> treach one o h s'.
Proof.
  induction 1 as [|a l A F IH]; intros s s' R EE; cbn [tplay] in EE; [injection EE as <-; exact R|].
  destruct (tplay1 one o a s) as [s1| | |] eqn:P1; try discriminate. cbn [bind] in EE. apply (IH s1 s'); [|exact EE]. eapply TS; [exact R|]. exact (tplay1_step one o a s s1 A P1).
Qed.
