From Verif Require Import CBase RingBuffer2Model LifeModel LifeSpec LifeProof LifeProof2 LifeProof3.

Lemma hd_destroy_nothread fixed s b ud cb fl sem qv sb qb : wf s -> hp s b = Some (mk_b true [ud; cb; fl; V0; sem; qv]) ->
  opt_sem s sem sb -> opt_q fixed s qv qb -> NoDup (b :: qb ++ sb) -> ud <> VU -> cb <> VU ->
  exists s', hd_destroy fixed [] (VP b 0) s = Ret (V0, s') /\ local (b :: qb ++ sb) [] s s'.
Proof.
  intros W H OS OQ Nd Ud Cb. unfold hd_destroy. donull. pose proof Nd as Nd0. apply NoDup_cons_iff in Nd. destruct Nd as (Nb & Nd). rewrite !in_app_iff in Nb.
  destruct (store_step s b 0 2 _ VT [ud; cb; VT; V0; sem; qv] W H eq_refl) as (s0 & E0 & L0 & H0). ev E0. cbn [mine] in H0. clear E0.
  assert (Sg : forall A, (forall x, In x A -> x <> b) -> apart A [b]) by (intros A K x X [<-|[]]; exact (K b X eq_refl)).
  pose proof (opt_sem_same _ _ _ _ _ _ OS L0 W ltac:(apply Sg; intros x X ->; tauto)) as OS0. pose proof (opt_q_same _ _ _ _ _ _ _ OQ L0 W ltac:(apply Sg; intros x X ->; tauto)) as OQ0.
  pose proof (local_wf _ _ _ _ L0) as W0. destruct (sem_post_opt _ _ _ OS0) as (Ps & Vs). doload. ev Ps. doload. donull. ev (eq_refl : ret tt s0 = Ret (tt, s0)).
  destruct (hd_tail V0 V0 fixed s0 b ud cb V0 V0 VT V0 sem qv sb qb [] W0) as (s9 & E9 & L9 & _); auto; [left; auto | rewrite app_nil_r; exact Nd0 |]. rewrite app_nil_r in L9. exists s9. split; [exact E9|].
  eapply local_trans; [|exact L9]. eapply call0; [|exact L0 | cbn; tauto]. apply local_refl; [exact W|]. intros x X. destruct X as [<-|X]; [eapply live_lt; eassumption|]. apply in_app_or in X. destruct X as [X|X].
  - destruct OQ as [(_ & ->)|(q & _ & -> & (? & ? & ? & ? & Q))]; [contradiction|]. destruct X as [<-|[]]; eapply live_lt; eassumption.
  - destruct OS as [(_ & ->)|(m & _ & -> & Sm)]; [contradiction|]. destruct X as [<-|[]]; eapply live_lt; eassumption.
Qed.
Lemma sem_init_step s : wf s -> exists v s', sem_init_ s = Ret (v, s') /\ ((v = V0 /\ local [] [] s s') \/ (exists m, v = VP m 0 /\ local [] [m] s s' /\ (nxt s <= m)%nat /\ hp s' m = Some (mk_b true [VI 0]))).
Proof.
  intros W. unfold sem_init_. start L s W (@nil nat). { apply in_none. }
  destruct (malloc_step s 1 W) as (a & s1 & E1 & [(-> & L1)|(m & -> & L1 & B & H)]); ev E1; donull; cbn [repeat] in *.
  { exists V0, s1. split; [reflexivity|]. left. auto. }
  done_call L L1. destruct (tick_step s1 (local_wf _ _ _ _ L)) as (ok & s2 & E2 & L2). ev E2. done_call L L2. destruct ok.
  - dostore L. eexists; eexists. split; [reflexivity|]. right. exists m. auto.
  - dofree L. eexists; eexists. split; [reflexivity|]. left. split; [reflexivity|]. drop L.
Qed.
Lemma thread_create_step s arg : wf s -> arg <> VU ->
  exists v s', thread_create_ arg s = Ret (v, s') /\ ((v = V0 /\ local [] [] s s') \/ (exists t th, v = VP t 0 /\ local [] [t; th] s s' /\ (nxt s <= t)%nat /\ (nxt s <= th)%nat /\ t <> th /\ hp s' t = Some (mk_b true [VP th 0]) /\ hp s' th = Some (mk_b true [arg]))).
Proof.
  intros W Ha. unfold thread_create_. start L s W (@nil nat). { apply in_none. }
  destruct (malloc_step s 1 W) as (a & s1 & E1 & [(-> & L1)|(t & -> & L1 & B & H)]); ev E1; donull; cbn [repeat] in *.
  { exists V0, s1. split; [reflexivity|]. left. auto. }
  done_call L L1. destruct (tick_step s1 (local_wf _ _ _ _ L)) as (ok & s2 & E2 & L2). ev E2. done_call L L2. destruct ok.
  - destruct (fresh_step s2 true [arg] (local_wf _ _ _ _ L)) as (th & s3 & E3 & L3 & B3 & H3). ev E3. assert (N : t <> th) by (eapply neq_fresh; [exact L | exact B3 | sub]). assert (B3' : (nxt s <= th)%nat) by (destruct L; lia).
    done_call L L3. dostore L. eexists; eexists. split; [reflexivity|]. right. exists t, th. split; [reflexivity|]. split; [eapply local_eqv; [exact L | sub | cbn [In]; intros; tauto]|]. auto 10.
  - dofree L. eexists; eexists. split; [reflexivity|]. left. split; [reflexivity|]. drop L.
Qed.
Lemma hd_create_step (fixed : bool) s n ud cb : wf s -> 0 <= n <= (if fixed then 1000000 else 1073741824) -> ud <> VU -> cb <> VU ->
  exists v s', hd_create fixed n ud cb s = Ret (v, s') /\ ((v = V0 /\ local [] [] s s') \/ (exists b bs, v = VP b 0 /\ local [] bs s s' /\ handler_at fixed (hp s') ud cb b bs)).
Proof.
  intros W Hn Ud Cb. unfold hd_create. start L s W (@nil nat). { apply in_none. }
  destruct (n <? (if fixed then 2 else 4)). { exists V0, s. split; [reflexivity|]. left. auto. }
  destruct (calloc_step s 6 W) as (a & s1 & E1 & [(-> & L1)|(b & -> & L1 & B & H)]); ev E1; donull; cbn [repeat] in *.
  { exists V0, s1. split; [reflexivity|]. left. auto. }
  done_call L L1. do 3 dostore L.
  match goal with |- context [bnd sem_init_ _ ?s0] => destruct (sem_init_step s0 (local_wf _ _ _ _ L)) as (sem & s5 & E5 & D5) end. ev E5. clear E5.
  assert (X : exists sb, local [] (b :: sb) s s5 /\ hp s5 b = Some (mk_b true [ud; cb; V0; V0; V0; V0]) /\ opt_sem s5 sem sb /\ NoDup (b :: sb)).
  { destruct D5 as [(-> & L5)|(m & -> & L5 & B5 & H5)].
    - done_call L L5. exists []. split; [exact L|]. split; [exact H|]. split; [left; auto|]. repeat constructor. intros [].
    - assert (N : b <> m) by (eapply neq_fresh; [exact L | exact B5 | sub]). done_call L L5. exists [m]. split; [eapply local_eqv; [exact L | sub | cbn [In]; intros; tauto]|]. split; [exact H|]. split; [right; eauto|].
      constructor; [intros [X|[]]; congruence|]. repeat constructor. intros []. }
  clear L H D5. destruct X as (sb & L & H & OS & Nd).
  destruct (store_step s5 b 0 4 _ sem [ud; cb; V0; V0; sem; V0] (local_wf _ _ _ _ L) H eq_refl) as (s6 & E6 & L6 & H6). ev E6. clear E6. cbn [mine] in H6.
  assert (As : apart sb [b]) by (intros x X [<-|[]]; inversion Nd; contradiction).
  pose proof (opt_sem_same _ _ _ _ _ _ OS L6 (local_wf _ _ _ _ L) As) as OS6. pose proof (call0 _ _ _ _ _ _ L L6 ltac:(cbn; tauto)) as LL. clear L H OS L6.
  destruct (q_create_step fixed s6 n (local_wf _ _ _ _ LL) Hn) as (qv & s7 & E7 & D7). ev E7. clear E7.
  assert (X : exists qb, local [] (b :: qb ++ sb) s s7 /\ hp s7 b = Some (mk_b true [ud; cb; V0; V0; sem; V0]) /\ opt_sem s7 sem sb /\ opt_q fixed s7 qv qb /\ NoDup (b :: qb ++ sb)).
  { assert (Ap : apart sb []) by (intros x _ []). destruct D7 as [(-> & L7)|(q & -> & L7 & B7 & Q)]; [exists [] | exists [q]]; cbn [app].
    - split; [exact (call1 _ _ _ _ _ _ LL L7 ltac:(cbn; tauto))|]. split; [rewrite (local_old _ _ _ _ b L7); [exact H6 | apply (local_in _ _ _ _ LL); left; reflexivity | intros []]|]. split; [exact (opt_sem_same _ _ _ _ _ _ OS6 L7 (local_wf _ _ _ _ LL) Ap)|]. split; [left; auto | exact Nd].
    - split; [eapply local_eqv; [exact (call _ _ _ _ _ _ _ LL L7 ltac:(cbn; tauto)) | intros x; reflexivity | intros x; cbn [app In]; tauto]|]. split; [rewrite (local_old _ _ _ _ b L7); [exact H6 | apply (local_in _ _ _ _ LL); left; reflexivity | intros []]|].
      split; [exact (opt_sem_same _ _ _ _ _ _ OS6 L7 (local_wf _ _ _ _ LL) Ap)|]. split; [right; eauto|]. assert (Nq : forall x, In x (b :: sb) -> x <> q) by (intros x X; eapply neq_fresh; [exact LL | exact B7 | exact X]).
      apply NoDup_cons_iff in Nd. constructor; [intros [X|X]; [exact (Nq b (or_introl eq_refl) (eq_sym X)) | tauto]|]. constructor; [intros X; exact (Nq q (or_intror X) eq_refl) | tauto]. }
  clear LL H6 OS6 As Nd D7. destruct X as (qb & L & H & OS & OQ & Nd).
  destruct (store_step s7 b 0 5 _ qv [ud; cb; V0; V0; sem; qv] (local_wf _ _ _ _ L) H eq_refl) as (s8 & E8 & L8 & H8). ev E8. clear E8. cbn [mine] in H8.
  apply NoDup_cons_iff in Nd. destruct Nd as (Nb & Nd). rewrite in_app_iff in Nb.
  pose proof (opt_sem_same _ _ _ _ _ _ OS L8 (local_wf _ _ _ _ L) ltac:(intros x X [<-|[]]; tauto)) as OS8. pose proof (opt_q_same _ _ _ _ _ _ _ OQ L8 (local_wf _ _ _ _ L) ltac:(intros x X [<-|[]]; tauto)) as OQ8.
  pose proof (call0 _ _ _ _ _ _ L L8 ltac:(cbn; tauto)) as LL. clear L H OS OQ L8.
  assert (NdA : NoDup (b :: qb ++ sb)) by (constructor; [rewrite in_app_iff; exact Nb | exact Nd]).
  assert (Fail : forall s9, local [] (b :: qb ++ sb) s s9 -> hp s9 b = Some (mk_b true [ud; cb; V0; V0; sem; qv]) -> opt_sem s9 sem sb -> opt_q fixed s9 qv qb ->
     exists v s', (hd_destroy fixed [] (VP b 0) ;;; ret V0) s9 = Ret (v, s') /\ ((v = V0 /\ local [] [] s s') \/ (exists b bs, v = VP b 0 /\ local [] bs s s' /\ handler_at fixed (hp s') ud cb b bs))).
  { intros s9 L9 H9 OS9 OQ9. destruct (hd_destroy_nothread fixed s9 b ud cb V0 sem qv sb qb (local_wf _ _ _ _ L9) H9 OS9 OQ9 NdA Ud Cb) as (s10 & E10 & L10). ev E10. exists V0, s10. split; [reflexivity|]. left. split; [reflexivity|]. exact (local_trans _ _ _ _ _ _ L9 L10). }
  destruct OQ8 as [(-> & ->)|(q & -> & -> & Q)]; donull.
  - ev (eq_refl : ret true s8 = Ret (true, s8)). apply Fail; auto. left. auto.
  - destruct (thread_create_step s8 (VP b 0) (local_wf _ _ _ _ LL) ltac:(discriminate)) as (tv & s9 & E9 & D9). rewrite bnd_assoc. ev E9. clear E9. rewrite bnd_assoc.
    assert (H9 : hp s9 b = Some (mk_b true [ud; cb; V0; V0; sem; VP q 0])).
    { destruct D9 as [(_ & L9)|(t & th & _ & L9 & _)]; (rewrite (local_old _ _ _ _ b L9); [exact H8 | apply (local_in _ _ _ _ LL); left; reflexivity | intros []]). }
    assert (OQ9 : opt_q fixed s9 (VP q 0) [q] /\ opt_sem s9 sem sb).
    { assert (OQ8 : opt_q fixed s8 (VP q 0) [q]) by (right; eauto). destruct D9 as [(_ & L9)|(t & th & _ & L9 & _)]; (split; [eapply opt_q_same; [exact OQ8 | exact L9 | exact (local_wf _ _ _ _ LL) | intros x _ []] | eapply opt_sem_same; [exact OS8 | exact L9 | exact (local_wf _ _ _ _ LL) | intros x _ []]]). }
    destruct OQ9 as (OQ9 & OS9). assert (W9 : wf s9) by (destruct D9 as [(_ & L9)|(t & th & _ & L9 & _)]; exact (local_wf _ _ _ _ L9)).
    destruct (store_step s9 b 0 3 _ tv [ud; cb; V0; tv; sem; VP q 0] W9 H9 eq_refl) as (sA & EA & LA & HA). ev EA. clear EA. cbn [mine] in HA.
    pose proof (opt_sem_same _ _ _ _ _ _ OS9 LA W9 ltac:(intros x X [<-|[]]; tauto)) as OSA. pose proof (opt_q_same _ _ _ _ _ _ _ OQ9 LA W9 ltac:(intros x X [<-|[]]; tauto)) as OQA.
    destruct D9 as [(-> & L9)|(t & th & -> & L9 & Bt & Bth & Nt & T & Th)]; donull.
    + apply Fail; auto. eapply call0; [exact (call1 _ _ _ _ _ _ LL L9 ltac:(cbn; tauto)) | exact LA | intros x [<-|[]]; left; reflexivity].
    + pose proof (neq_fresh _ _ _ _ t b LL Bt ltac:(left; reflexivity)) as N1. pose proof (neq_fresh _ _ _ _ th b LL Bth ltac:(left; reflexivity)) as N2.
      assert (TA : hp sA t = Some (mk_b true [VP th 0])). { rewrite (local_old _ _ _ _ t LA); [exact T | eapply live_lt; eauto | intros [X|[]]; congruence]. }
      assert (ThA : hp sA th = Some (mk_b true [VP b 0])). { rewrite (local_old _ _ _ _ th LA); [exact Th | eapply live_lt; eauto | intros [X|[]]; congruence]. }
      exists (VP b 0), sA. split; [reflexivity|]. right. exists b, (b :: t :: th :: q :: sb). split; [reflexivity|]. split.
      * pose proof (call _ _ _ _ _ _ _ LL L9 ltac:(cbn; tauto)) as LB. eapply local_eqv; [eapply call0; [exact LB | exact LA | intros x [<-|[]]; cbn; tauto] | intros x; reflexivity | intros x; cbn [app In]; tauto].
      * destruct OQA as [(X & _)|(q' & Xq & _ & QA)]; [discriminate|]. injection Xq as <-. exists V0, t, th, q, sem, sb. split; [auto|]. split; [exact HA|]. split; [exact TA|]. split; [exact ThA|]. split; [exact QA|]. split; [destruct OSA as [OSA|OSA]; [left; exact OSA | right; exact OSA]|]. split; [reflexivity|].
        assert (Ft : forall x, In x (b :: [q] ++ sb) -> x <> t) by (intros x X; eapply neq_fresh; [exact LL | exact Bt | exact X]). assert (Fth : forall x, In x (b :: [q] ++ sb) -> x <> th) by (intros x X; eapply neq_fresh; [exact LL | exact Bth | exact X]).
        cbn [app In] in *. constructor; [cbn [In]; intros [X|[X|X]]; [congruence | congruence | tauto]|]. constructor; [cbn [In]; intros [X|X]; [congruence|]; apply (Ft t); tauto|]. constructor; [cbn [In]; intros X; apply (Fth th); tauto | exact Nd].
Qed.
