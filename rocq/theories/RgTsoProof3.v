(** Proofs for C79, part 3: the theorems *)
From Verif Require Import MpliteProof2 MpliteProof6.
From Verif Require Import CBase SeqLib RingBufModel RgMtModel RgMtSpec RgMtProof RgMtProof2 RgTsoModel RgTsoSpec RgTsoProof RgTsoProof2.
Section P.
Variable h : @ring Z.
Hypothesis RI : empty_ring h.
Let c0 := rg_w h.
Let C0 : 0 <= c0. Proof. destruct RI as (_ & _ & X & _). unfold c0. lia. Qed.
Notation tinv := (tinv c0).
Definition tfull s S k p q := tinv s S k p q /\ t_size s = rg_size h /\ agree (got (plain (t_log s))) (ztake (taken (plain (t_log s))) S).
Lemma tagree_more s S k p q X : tinv s S k p q -> agree (got (plain (t_log s))) (ztake (taken (plain (t_log s))) S) -> agree (got (plain (t_log s))) (ztake (taken (plain (t_log s))) (S ++ X)).
Proof. intros I AG. pose proof (v_tk _ _ _ _ _ _ I). pose proof (ttaken_le _ s S k p q I). pose proof (v_rng _ _ _ _ _ _ I). rewrite ztake_app_l by lia. exact AG. Qed.
Lemma twstep_same s s' : twstep s = Ret s' -> t_size s' = t_size s /\ got (plain (t_log s')) = got (plain (t_log s)) /\ taken (plain (t_log s')) = taken (plain (t_log s)).
Proof.
  unfold twstep. destruct (t_wp s) as [| |c|c start i|c n]; intro H.
  - injection H as <-. auto.
  - injection H as <-. auto.
  - destruct ((wlen c =? 0) || (wlen c >? room s)); injection H as <-; auto.
  - destruct (i <? wlen c); [|injection H as <-; auto]. destruct (mload _ _); try discriminate. cbn [bind] in H. injection H as <-. auto.
  - injection H as <-. auto.
Qed.
Lemma trstep_full s s' S k k' p q : tfull s S k p q -> trstep s = Ret s' -> tinv s' S k' p q -> tfull s' S k' p q.
Proof.
  intros (I & CS & AG) H I'. split; [exact I'|]. unfold trstep in H. pose proof (v_r _ _ _ _ _ _ I) as RR. unfold trinv in RR. destruct (t_rp s) as [| |c|c start i t|c n t'] eqn:ER.
  - injection H as <-. auto.
  - injection H as <-. auto.
  - destruct ((rlen c =? 0) || (rlen c >? stored s)); injection H as <-; auto.
  - destruct (i <? rlen c); [|destruct (is_peek c); injection H as <-; auto]. destruct (mload _ _); try discriminate. cbn [bind] in H. destruct (mstore _ _ _); try discriminate. cbn [bind] in H. injection H as <-. auto.
  - injection H as <-. cbn [t_size t_log tset_rp temit]. split; [exact CS|]. change (plain (E (ERRet c n t') :: t_log s)) with (ERRet c n t' :: plain (t_log s)). cbn [got taken]. pose proof (trret_le c0 s S k p q c n t' I ER) as RL.
    destruct RR as ((OK1 & OK2) & k1 & K1 & K2 & K3 & K4). cbv zeta in K2, K3. pose proof (v_tk _ _ _ _ _ _ I) as TK. pose proof (v_rng _ _ _ _ _ _ I) as (R1 & R2 & R3).
    set (TL := taken (plain (t_log s))) in *.
    rewrite ztake_more by lia. apply agree_app; [exact AG|].
    assert (N : forall len, n = granted len (k1 - TL) -> n <= k1 - TL) by (intros len ->; apply granted_rng; lia).
    assert (LN : 0 <= n -> n <= k1 - TL -> zlen (ztake n (zdrop TL S)) = n) by (intros; apply zlen_ztake; rewrite zlen_zdrop by lia; lia).
    assert (GET : forall m t0, 0 <= m -> m <= k1 - TL -> ztake m (tnext s S m ++ zdrop m t0) = ztake m (zdrop TL S)).
    { intros m t0 M0 M1. unfold tnext. fold TL. assert (L : zlen (ztake m (zdrop TL S)) = m) by (apply zlen_ztake; rewrite zlen_zdrop by lia; lia). rewrite ztake_app_l by lia. apply ztake_all. lia. }
    destruct c as [[t0|] len|[t0|] len|len|]; cbn [rbytes rlen rtgt] in *; subst t'; cbn [gets]; try (cbn; constructor).
    + rewrite GET by (try apply (N len); auto; lia). apply agree_some.
    + replace (Z.to_nat n) with (length (ztake n (zdrop TL S))); [apply agree_none|]. specialize (LN ltac:(lia) (N len K3)). unfold zlen in LN. lia.
    + replace (Z.to_nat n) with (length (ztake n (zdrop TL S))); [apply agree_none|]. specialize (LN ltac:(lia) (N len K3)). unfold zlen in LN. lia.
Qed.
Lemma commit_same s e s' : commit s e = Ret s' -> t_size s' = t_size s /\ t_log s' = t_log s /\ t_wp s' = t_wp s.
Proof. destruct e; cbn [commit]; [destruct (mstore _ _ _); try discriminate; cbn [bind]|]; intro H; injection H as <-; auto. Qed.
Lemma tstep_full s S k p q s' : tfull s S k p q -> tstep false s s' -> exists S' k' p' q', tfull s' S' k' p' q'.
Proof.
  intros F H. pose proof F as (I & CS & AG). destruct H as [s s' H|s s' H|s c EE OK|s c EE OK|s s' a e b EB O SP C|s x b EB|s EW EB|s EW EB].
  - destruct (twstep_inv c0 C0 s S k p q I) as (s1 & X & H1 & I1). rewrite H in H1. injection H1 as <-. destruct (twstep_same s s' H) as (E1 & E2 & E3). exists (S ++ X), k, p, q. split; [exact I1|]. split; [congruence|].
    rewrite E2, E3. eapply tagree_more; eassumption.
  - destruct (trstep_inv c0 C0 s S k p q I) as (s1 & k' & H1 & I1). rewrite H in H1. injection H1 as <-. exists S, k', p, q. exact (trstep_full s s' S k k' p q F H I1).
  - exists S, k, p, q. split; [apply twcall_inv; auto|]. split; [exact CS|]. exact AG.
  - exists S, k, p, q. split; [apply trcall_inv; auto|]. split; [exact CS|]. exact AG.
  - destruct O as [O| ->]; [discriminate|]. cbn [app] in *. destruct (twflush_inv c0 s S k p q e b I EB) as (s1 & p' & H1 & I1). rewrite C in H1. injection H1 as <-. exists S, k, p', q. split; [exact I1|]. destruct (commit_same _ _ _ C) as (E1 & E2 & _). rewrite E1, E2. split; [exact CS|exact AG].
  - destruct (trflush_inv c0 s S k p q x b I EB) as (q' & I1). exists S, k, p, q'. split; [exact I1|]. split; [exact CS|exact AG].
  - exists S, k, p, q. split; [apply twsync_inv; auto|]. split; [exact CS|]. exact AG.
  - exists S, k, p, q. split; [apply trsync_inv; auto|]. split; [exact CS|]. exact AG.
Qed.
Lemma treach_full s : treach false h s -> exists S k p q, tfull s S k p q.
Proof.
  induction 1 as [|s s' R IH ST].
  - exists [], 0, 0, 0. destruct RI as (SZ & L & W & EE). split; [|split; [reflexivity|constructor]].
    assert (M0 : rg_w h = (c0 + 0) mod rg_size h) by (rewrite Z.add_0_r; symmetry; apply Z.mod_small; exact W).
    split; cbn [t_size t_mem t_w t_r t_log t_wp t_rp t_wbuf t_rbuf tboot]; auto; try exact Logic.I; try reflexivity; try (cbn; lia).
    + change (zlen (@nil Z)) with 0. lia.
    + cbn [good]. split; [reflexivity|]. split; [exact L|exact Logic.I].
  - destruct IH as (S & k & p & q & F). exact (tstep_full s S k p q s' F ST).
Qed.
Lemma tno_fault s : treach false h s -> (exists s', twstep s = Ret s') /\ (exists s', trstep s = Ret s') /\ (forall e b, t_wbuf s = e :: b -> exists s', commit (tset_wbuf s b) e = Ret s').
Proof.
  intro R. destruct (treach_full s R) as (S & k & p & q & I & _). split; [|split].
  - destruct (twstep_inv c0 C0 s S k p q I) as (s' & X & H & _). eauto.
  - destruct (trstep_inv c0 C0 s S k p q I) as (s' & X & H & _). eauto.
  - intros e b EB. destruct (twflush_inv c0 s S k p q e b I EB) as (s' & X & H & _). eauto.
Qed.
Lemma tevery_answer s later e earlier : treach false h s -> t_log s = later ++ e :: earlier -> tev_ok (rg_size h - 1) e earlier.
Proof.
  intros R EE. destruct (treach_full s R) as (S & k & p & q & I & CS & _). pose proof (v_evs _ _ _ _ _ _ I) as EV. rewrite CS, EE in EV. clear - EV. induction later as [|x l IH]; cbn [app tevs_ok] in EV; tauto.
Qed.
Lemma tstream s : treach false h s -> let l := plain (t_log s) in exists S, prefix (wrote l) S /\ prefix S (offered l) /\ agree (got l) (ztake (zlen (got l)) S).
Proof.
  intro R. destruct (treach_full s R) as (S & k & p & q & I & CS & AG). exists S. split; [eexists; exact (v_wrote _ _ _ _ _ _ I)|]. split; [exact (tprefix_offered _ s S k p q I)|].
  pose proof (agree_len _ _ AG) as L. pose proof (v_tk _ _ _ _ _ _ I). pose proof (ttaken_le _ s S k p q I). pose proof (v_rng _ _ _ _ _ _ I). rewrite zlen_ztake in L by lia. rewrite L. exact AG.
Qed.
(** ** number of steps *)
Lemma twleft_step s S k p q s' : tinv s S k p q -> t_wp s <> WIdle -> twstep s = Ret s' -> 0 <= wleft (t_wp s') < wleft (t_wp s).
Proof.
  intros I NI H. pose proof (v_w _ _ _ _ _ _ I) as W. unfold twinv in W. unfold twstep in H. destruct (t_wp s) as [| |c|c start i|c n] eqn:EW; try congruence.
  - injection H as <-. cbn. lia.
  - destruct W as (W & _). apply (wlen_nonneg h) in W. destruct ((wlen c =? 0) || (wlen c >? room s)); injection H as <-; cbn [tset_wp t_wp wleft]; lia.
  - destruct W as (_ & _ & _ & Hi & _). destruct (i <? wlen c) eqn:Q; [|injection H as <-; cbn; lia]. destruct (mload _ _); try discriminate. cbn [bind] in H. injection H as <-. cbn [tset_wp t_wp wleft]. lia.
  - injection H as <-. cbn. lia.
Qed.
Lemma trleft_step s S k p q s' : tinv s S k p q -> t_rp s <> RIdle -> trstep s = Ret s' -> 0 <= rleft (t_rp s') < rleft (t_rp s).
Proof.
  intros I NI H. pose proof (v_r _ _ _ _ _ _ I) as W. unfold trinv in W. unfold trstep in H. destruct (t_rp s) as [| |c|c start i t|c n t'] eqn:EW; try congruence.
  - injection H as <-. cbn. lia.
  - destruct W as ((W & _) & _). destruct ((rlen c =? 0) || (rlen c >? stored s)); injection H as <-; cbn [tset_rp t_rp rleft]; [lia|]. destruct (rtgt c); lia.
  - destruct W as (_ & _ & _ & Hi & _). destruct (i <? rlen c) eqn:Q; [|destruct (is_peek c); injection H as <-; cbn [tset_rp t_rp rleft]; lia]. destruct (mload _ _); try discriminate. cbn [bind] in H. destruct (mstore _ _ _); try discriminate. cbn [bind] in H. injection H as <-. cbn [tset_rp t_rp rleft]. lia.
  - injection H as <-. cbn. lia.
Qed.
Lemma twleft_nonneg s S k p q : tinv s S k p q -> 0 <= wleft (t_wp s).
Proof. intro I. pose proof (v_w _ _ _ _ _ _ I) as W. unfold twinv in W. destruct (t_wp s) as [| |c|c start i|c n]; cbn [wleft]; try lia. apply proj1, (wlen_nonneg h) in W. lia. Qed.
Lemma trleft_nonneg s S k p q : tinv s S k p q -> 0 <= rleft (t_rp s).
Proof. intro I. pose proof (v_r _ _ _ _ _ _ I) as W. unfold trinv in W. destruct (t_rp s) as [| |c|c start i t|c n t']; cbn [rleft]; try lia. destruct W as ((W & _) & _). lia. Qed.
Lemma twrun_bound n s s' : twrun false n s s' -> forall S k p q, tinv s S k p q -> Z.of_nat n <= wleft (t_wp s).
Proof.
  induction 1 as [s|n s s1 s2 NI ST R IH|n s s1 s2 ST EE R IH]; intros S k p q I.
  - pose proof (twleft_nonneg s S k p q I). lia.
  - destruct (twleft_step s S k p q s1 I NI ST) as (L1 & L2). destruct (twstep_inv c0 C0 s S k p q I) as (s3 & X & H1 & I1). rewrite ST in H1. injection H1 as <-. specialize (IH _ _ _ _ I1). lia.
  - destruct (tstep_inv c0 C0 s S k p q s1 I ST) as (S' & k' & p' & q' & I1). specialize (IH _ _ _ _ I1). rewrite EE in IH. exact IH.
Qed.
Lemma trrun_bound n s s' : trrun false n s s' -> forall S k p q, tinv s S k p q -> Z.of_nat n <= rleft (t_rp s).
Proof.
  induction 1 as [s|n s s1 s2 NI ST R IH|n s s1 s2 ST EE R IH]; intros S k p q I.
  - pose proof (trleft_nonneg s S k p q I). lia.
  - destruct (trleft_step s S k p q s1 I NI ST) as (L1 & L2). destruct (trstep_inv c0 C0 s S k p q I) as (s3 & X & H1 & I1). rewrite ST in H1. injection H1 as <-. specialize (IH _ _ _ _ I1). lia.
  - destruct (tstep_inv c0 C0 s S k p q s1 I ST) as (S' & k' & p' & q' & I1). specialize (IH _ _ _ _ I1). rewrite EE in IH. exact IH.
Qed.
Lemma twait_free_w s c n s' : treach false h s -> t_wp s = WIdle -> wok c -> twrun false n (tset_wp (temit s (E (EWCall c))) (wbegin c)) s' ->
  Z.of_nat n <= match c with WWrite _ len => len + 3 | WSpace => 2 end.
Proof.
  intros R EE OK W. assert (R' : treach false h (tset_wp (temit s (E (EWCall c))) (wbegin c))) by (eapply TS; [exact R|constructor; auto]).
  destruct (treach_full _ R') as (S & k & p & q & I & _). pose proof (twrun_bound n _ _ W S k p q I) as B. destruct c; exact B.
Qed.
Lemma twait_free_r s c n s' : treach false h s -> t_rp s = RIdle -> rok c -> trrun false n (tset_rp (temit s (E (ERCall c))) (rbegin c)) s' ->
  Z.of_nat n <= match c with RRead _ len | RPeek _ len | RDiscard len => len + 3 | RAvail => 2 end.
Proof.
  intros R EE OK W. assert (R' : treach false h (tset_rp (temit s (E (ERCall c))) (rbegin c))) by (eapply TS; [exact R|constructor; auto]).
  destruct (treach_full _ R') as (S & k & p & q & I & _). pose proof (trrun_bound n _ _ W S k p q I) as B. destruct c; exact B.
Qed.
End P.

(** ** runs for the examples *)
Inductive act := AW | AR | AWC (c : wcall) | ARC (c : rcall) | FW (n : nat) | FR | SW | SR.
Definition tplay1 (o : bool) (a : act) (s : tst) : outcome tst :=
  match a with
  | AW => twstep s
  | AR => trstep s
  | AWC c => match t_wp s with WIdle => Ret (tset_wp (temit s (E (EWCall c))) (wbegin c)) | _ => Ub end
  | ARC c => match t_rp s with RIdle => Ret (tset_rp (temit s (E (ERCall c))) (rbegin c)) | _ => Ub end
  | FW n =>
      match skipn n (t_wbuf s) with
      | e :: b => if (o || (Nat.eqb n 0)) && forallb (fun x => negb (same_place x e)) (firstn n (t_wbuf s)) then commit (tset_wbuf s (firstn n (t_wbuf s) ++ b)) e else Ub
      | [] => Ub
      end
  | FR => match t_rbuf s with x :: b => Ret (tset_rbuf (tset_r s x) b) | [] => Ub end
  | SW => match t_wp s, t_wbuf s with WIdle, [] => Ret (temit s WSync) | _, _ => Ub end
  | SR => match t_rp s, t_rbuf s with RIdle, [] => Ret (temit s RSync) | _, _ => Ub end
  end.
Fixpoint tplay (o : bool) (l : list act) (s : tst) : outcome tst := match l with [] => Ret s | a :: l => do s <- tplay1 o a s; tplay o l s end.
Definition act_ok (a : act) : Prop := match a with AWC c => wok c | ARC c => rok c | _ => True end.
Lemma tplay1_step o a s s' : act_ok a -> tplay1 o a s = Ret s' -> tstep o s s'.
Proof.
  intros A H. destruct a as [| |c|c|n| | |]; cbn [tplay1] in H.
  - apply TW; exact H.
  - apply TR; exact H.
  - destruct (t_wp s) eqn:W; try discriminate. injection H as <-. apply TWCall; auto.
  - destruct (t_rp s) eqn:W; try discriminate. injection H as <-. apply TRCall; auto.
  - destruct (skipn n (t_wbuf s)) as [|e b] eqn:SK; try discriminate.
    destruct ((o || Nat.eqb n 0) && forallb (fun x => negb (same_place x e)) (firstn n (t_wbuf s))) eqn:Q; try discriminate. apply andb_true_iff in Q. destruct Q as (Q1 & Q2).
    apply (TWFlush o s s' (firstn n (t_wbuf s)) e b); auto.
    + rewrite <- SK. symmetry. apply firstn_skipn.
    + apply orb_true_iff in Q1. destruct Q1 as [Q1|Q1]; [left; exact Q1|right]. apply Nat.eqb_eq in Q1. subst n. reflexivity.
  - destruct (t_rbuf s) as [|x b] eqn:B; try discriminate. injection H as <-. apply TRFlush. exact B.
  - destruct (t_wp s) eqn:W; try discriminate. destruct (t_wbuf s) eqn:B; try discriminate. injection H as <-. apply TWSync; auto.
  - destruct (t_rp s) eqn:W; try discriminate. destruct (t_rbuf s) eqn:B; try discriminate. injection H as <-. apply TRSync; auto.
Qed.
Lemma tplay_reach o h l : Forall act_ok l -> forall s s', treach o h s -> tplay o l s = Ret s' -> treach o h s'.
Proof.
  induction 1 as [|a l A F IH]; intros s s' R EE; cbn [tplay] in EE; [injection EE as <-; exact R|].
  destruct (tplay1 o a s) as [s1| | |] eqn:P1; try discriminate. cbn [bind] in EE. apply (IH s1 s'); [|exact EE]. eapply TS; [exact R|]. exact (tplay1_step o a s s1 A P1).
Qed.
