From Verif Require Import CBase RingBuffer2Model LifeModel LifeSpec LifeProof.

Lemma new_out A B s s' x : local A B s s' -> (x < nxt s)%nat -> ~ In x A -> ~ In x B.
Proof. intros (_ & _ & _ & R & _) X N I. destruct (R x I) as ([|] & _); [contradiction | lia]. Qed.
(** what a worker's callback needs: nothing (cb = NULL), or the file logger at ud with its stream *)
Definition fstate (h : nat -> option block) (f : nat) (x0 x2 : val) (fb : list nat) : Prop :=
  exists fp, h f = Some (mk_b true [x0; fp; x2]) /\ ((fp = V0 /\ fb = []) \/ exists g, fp = VP g 0 /\ fb = [g] /\ g <> f /\ h g = Some (mk_b true [VI 0])).
Definition ctx (x0 x2 : val) (s : st) (ud cb : val) (E : list nat) : Prop :=
  (cb = V0 /\ E = []) \/ (cb = VT /\ exists f fb, ud = VP f 0 /\ E = f :: fb /\ fstate (hp s) f x0 x2 fb).
Lemma ctx_same x0 x2 s s' ud cb E T B : ctx x0 x2 s ud cb E -> local T B s s' -> inside E s -> (forall x, In x E -> ~ In x T) -> ctx x0 x2 s' ud cb E.
Proof.
  intros [C|(-> & f & fb & -> & -> & fp & H & D)] L I N; [left; exact C | right]. split; [reflexivity|]. exists f, fb. split; [reflexivity|]. split; [reflexivity|]. exists fp.
  split; [rewrite (local_old _ _ _ _ f L); [exact H | apply I; left; reflexivity | apply N; left; reflexivity]|]. destruct D as [D|(g & -> & -> & Ng & Hg)]; [auto|]. right. exists g. split; [reflexivity|]. split; [reflexivity|]. split; [exact Ng|].
  rewrite (local_old _ _ _ _ g L); [exact Hg | apply I; cbn; auto | apply N; cbn; auto].
Qed.
Lemma ctx_in x0 x2 s ud cb E : wf s -> ctx x0 x2 s ud cb E -> inside E s.
Proof. intros W [(_ & ->)|(_ & f & fb & _ & -> & fp & H & D)] x X; [contradiction|]. destruct X as [<-|X]; [eapply live_lt; eauto|]. destruct D as [(_ & ->)|(g & _ & -> & _ & Hg)]; [contradiction|]. destruct X as [<-|[]]. eapply live_lt; eauto. Qed.
Lemma fl_handle_step x0 x2 s f fb pf : wf s -> fstate (hp s) f x0 x2 fb ->
  exists s' fb', fl_handle (VP f 0) pf s = Ret (tt, s') /\ local (f :: fb) (f :: fb') s s' /\ fstate (hp s') f x0 x2 fb'.
Proof.
  intros W (fp & H & D). unfold fl_handle. destruct D as [(-> & ->)|(g & -> & -> & N & G)].
  - start L s W [f]. { eapply in_one; eauto. } doload. donull.
    match goal with |- context [bnd ?m ?k s] => assert (X : exists s1 fb1, m s = Ret (tt, s1) /\ local [f] (f :: fb1) s s1 /\ fstate (hp s1) f x0 x2 fb1) end.
    { destruct (tick_step s W) as (ok & s1 & E1 & L1). ev E1. done_call L L1. destruct ok.
      - destruct (fresh_step s1 true [VI 0] (local_wf _ _ _ _ L)) as (g & s2 & E2 & L2 & B & G). ev E2. assert (N : f <> g) by (eapply neq_fresh; [exact L | exact B | sub]). done_call L L2.
        destruct (store_step s2 f 0 1 _ (VP g 0) [x0; VP g 0; x2] (local_wf _ _ _ _ L) H eq_refl) as (s3 & E3 & L3 & H3). rewrite E3. cbn [mine] in H3. clear H. done_call L L3.
        exists s3, [g]. split; [reflexivity|]. split; [eapply local_eqv; [exact L | sub | cbn [In]; intros; tauto]|]. exists (VP g 0). split; [exact H3|]. right. exists g. auto.
      - exists s1, []. split; [reflexivity|]. split; [exact L|]. exists V0. auto. }
    destruct X as (s1 & fb1 & E1 & L1 & (fp & H1 & D1)). ev E1. clear L H. destruct D1 as [(-> & ->)|(g & -> & -> & N & G)].
    + doload. donull. exists s1, []. split; [reflexivity|]. split; [exact L1|]. exists V0. auto.
    + doload. donull. destruct pf.
      * dofree L1. match goal with |- context [store _ _ _ ?s0] => destruct (store_step s0 f 0 1 _ V0 [x0; V0; x2] (local_wf _ _ _ _ L1) H1 eq_refl) as (s3 & E3 & L3 & H3) end. rewrite E3. cbn [mine] in H3. clear H1. done_call L1 L3.
        exists s3, []. split; [reflexivity|]. split; [drop L1|]. exists V0. auto.
      * exists s1, [g]. split; [reflexivity|]. split; [exact L1|]. exists (VP g 0). split; [exact H1|]. right. exists g. auto.
  - start L s W [f; g]. { intros x [<-|[<-|[]]]; eapply live_lt; eauto. } doload. donull. ev (eq_refl : ret tt s = Ret (tt, s)). doload. donull. destruct pf.
    + dofree L. match goal with |- context [store _ _ _ ?s0] => destruct (store_step s0 f 0 1 _ V0 [x0; V0; x2] (local_wf _ _ _ _ L) H eq_refl) as (s3 & E3 & L3 & H3) end. rewrite E3. cbn [mine] in H3. clear H. done_call L L3.
      exists s3, []. split; [reflexivity|]. split; [drop L|]. exists V0. auto.
    + exists s, [g]. split; [reflexivity|]. split; [exact L|]. exists (VP g 0). split; [exact H|]. right. exists g. auto.
Qed.
Lemma wloop_step x0 x2 ud cb b fl tv sem qv : forall l s bf c E, wf s -> ctx x0 x2 s ud cb E -> hp s b = Some (mk_b true [ud; cb; fl; tv; sem; qv]) -> hp s bf = Some (mk_b true c) -> ~ In b (bf :: E) -> ~ In bf E -> ud <> VU -> cb <> VU ->
  exists v s' E' nb, wloop l (VP b 0) (VP bf 0) s = Ret (v, s') /\ local (bf :: E) (nb ++ E') s s' /\ ctx x0 x2 s' ud cb E' /\
    ((v = V0 /\ nb = []) \/ exists bf' c', v = VP bf' 0 /\ nb = [bf'] /\ hp s' bf' = Some (mk_b true c') /\ ~ In bf' E').
Proof.
  induction l as [|[|pf] l IH]; intros s bf c E W C H F N1 N2 Ud Cb; cbn [wloop].
  - exists (VP bf 0), s, E, [bf]. split; [reflexivity|]. split; [apply local_refl; [exact W|]; intros x [<-|X]; [eapply live_lt; eauto | eapply ctx_in; eauto]|]. split; [exact C|]. right. exists bf, c. auto.
  - destruct (free_step s bf c W F) as (s1 & E1 & L1 & H1). ev E1. destruct (malloc_step s1 1 (local_wf _ _ _ _ L1)) as (v & s2 & E2 & G). ev E2.
    assert (L12 : exists nb, local [bf] nb s s2 /\ ((v = V0 /\ nb = []) \/ exists bf', v = VP bf' 0 /\ nb = [bf'] /\ (nxt s <= bf')%nat /\ hp s2 bf' = Some (mk_b true [VU]))).
    { destruct G as [(-> & L2)|(bf' & -> & L2 & B & H2)]; [exists [] | exists [bf']]; (split; [exact (local_trans _ _ _ _ _ _ L1 L2)|]); [auto|]. right. exists bf'. split; [reflexivity|]. split; [reflexivity|]. split; [destruct L1; lia | exact H2]. }
    clear E1 E2 G L1 H1. destruct L12 as (nb & L2 & G). pose proof (ctx_in _ _ _ _ _ _ W C) as In_E.
    assert (C2 : ctx x0 x2 s2 ud cb E) by (eapply ctx_same; [exact C | exact L2 | exact In_E | intros x X [<-|[]]; contradiction]).
    pose proof (local_frame _ _ E _ _ L2 In_E) as LF. cbn [app] in LF.
    destruct G as [(-> & ->)|(bf' & -> & -> & B & F2)]; donull.
    + exists V0, s2, E, []. split; [reflexivity|]. split; [exact LF|]. split; [exact C2|]. auto.
    + assert (H2 : hp s2 b = Some (mk_b true [ud; cb; fl; tv; sem; qv])). { rewrite (local_old _ _ _ _ b L2); [exact H | eapply live_lt; eauto | intros [<-|[]]; apply N1; left; reflexivity]. }
      destruct (IH s2 bf' [VU] E (local_wf _ _ _ _ L2) C2 H2 F2) as (v & s3 & E' & nb & E3 & L3 & R); auto.
      * intros [<-|X]; [|apply N1; right; exact X]. pose proof (live_lt _ _ _ W H). lia.
      * intros X. specialize (In_E _ X). lia.
      * exists v, s3, E', nb. split; [exact E3|]. split; [exact (local_trans _ _ _ _ _ _ LF L3) | exact R].
  - doload. assert (X : exists s1 E1, (cb0 <-- truth cb ;; (if cb0 then u <-- load (VP b 0) 0 ;; fl_handle u pf else ret tt)) s = Ret (tt, s1) /\ local E E1 s s1 /\ ctx x0 x2 s1 ud cb E1).
    { pose proof (ctx_in _ _ _ _ _ _ W C) as In_E. destruct C as [(-> & ->)|(-> & f & fb & -> & -> & Fs)].
      - exists s, []. split; [reflexivity|]. split; [apply local_refl; [exact W | exact In_E] | left; auto].
      - cbn [truth]. ev (eq_refl : ret true s = Ret (true, s)). doload. destruct (fl_handle_step x0 x2 s f fb pf W Fs) as (s1 & fb1 & E1 & L1 & F1). rewrite E1. exists s1, (f :: fb1). split; [reflexivity|]. split; [exact L1|]. right. split; [reflexivity|]. exists f, fb1. auto. }
    destruct X as (s1 & E1 & Ev & L1 & C1). unfold bnd in Ev. unfold bnd. destruct (truth cb s) as [[cb0 st0]| | |]; try discriminate. cbv beta in *. rewrite Ev. clear Ev.
    pose proof (ctx_in _ _ _ _ _ _ W C) as In_E.
    assert (H1 : hp s1 b = Some (mk_b true [ud; cb; fl; tv; sem; qv])). { rewrite (local_old _ _ _ _ b L1); [exact H | eapply live_lt; eauto | intros X; apply N1; right; exact X]. }
    assert (F1 : hp s1 bf = Some (mk_b true c)). { rewrite (local_old _ _ _ _ bf L1); [exact F | eapply live_lt; eauto | exact N2]. }
    assert (Nbf : ~ In bf E1) by (eapply new_out; [exact L1 | eapply live_lt; eauto | exact N2]).
    destruct (IH s1 bf c E1 (local_wf _ _ _ _ L1) C1 H1 F1) as (v & s3 & E' & nb & E3 & L3 & R); auto.
    + intros [X|X]; [apply N1; left; exact X|]. revert X. eapply new_out; [exact L1 | eapply live_lt; eauto | intros Y; apply N1; right; exact Y].
    + exists v, s3, E', nb. split; [exact E3|]. split; [|exact R]. eapply local_trans; [|exact L3]. eapply local_eqv; [exact (local_frame _ _ [bf] _ _ L1 ltac:(eapply in_one; eauto)) | |]; intros x; rewrite in_app_iff; cbn; tauto.
Qed.
Lemma worker_step x0 x2 fixed l s b ud cb fl tv sem qv E : wf s -> ctx x0 x2 s ud cb E -> hp s b = Some (mk_b true [ud; cb; fl; tv; sem; qv]) -> ~ In b E -> ud <> VU -> cb <> VU ->
  exists s' E', worker fixed l (VP b 0) s = Ret (tt, s') /\ local (b :: E) (b :: E') s s' /\ hp s' b = Some (mk_b true [ud; cb; VT; tv; sem; qv]) /\ ctx x0 x2 s' ud cb E' /\ ~ In b E'.
Proof.
  intros W C H N Ud Cb. unfold worker. pose proof (ctx_in _ _ _ _ _ _ W C) as In_E. assert (Lb : (b < nxt s)%nat) by (eapply live_lt; eauto).
  assert (Flag : forall s1 E1, local (b :: E) (b :: E1) s s1 -> hp s1 b = Some (mk_b true [ud; cb; fl; tv; sem; qv]) -> ctx x0 x2 s1 ud cb E1 -> ~ In b E1 ->
    exists s' E', store (VP b 0) 2 VT s1 = Ret (tt, s') /\ local (b :: E) (b :: E') s s' /\ hp s' b = Some (mk_b true [ud; cb; VT; tv; sem; qv]) /\ ctx x0 x2 s' ud cb E' /\ ~ In b E').
  { intros s1 E1 L1 H1 C1 N1. destruct (store_step s1 b 0 2 _ VT [ud; cb; VT; tv; sem; qv] (local_wf _ _ _ _ L1) H1 eq_refl) as (s2 & E2 & L2 & H2). exists s2, E1. split; [exact E2|]. split; [eapply call0; [exact L1 | exact L2 | cbn; tauto]|].
    split; [exact H2|]. split; [|exact N1]. eapply ctx_same; [exact C1 | exact L2 | eapply ctx_in; [exact (local_wf _ _ _ _ L1) | exact C1] | intros x X [<-|[]]; contradiction]. }
  assert (L0 : local (b :: E) (b :: E) s s). { apply local_refl; [exact W|]. intros x [<-|X]; auto. }
  destruct fixed; [apply (Flag s E); auto|].
  destruct (malloc_step s 1 W) as (v & s1 & E1 & [(-> & L1)|(bf & -> & L1 & B & F)]); ev E1; donull.
  - apply (Flag s1 E); [eapply call1; [exact L0 | exact L1 | cbn; tauto] | rewrite (local_old _ _ _ _ b L1); auto | | exact N]. eapply ctx_same; [exact C | exact L1 | exact In_E | auto].
  - assert (H1 : hp s1 b = Some (mk_b true [ud; cb; fl; tv; sem; qv])) by (rewrite (local_old _ _ _ _ b L1); auto).
    assert (C1 : ctx x0 x2 s1 ud cb E) by (eapply ctx_same; [exact C | exact L1 | exact In_E | auto]).
    destruct (wloop_step x0 x2 ud cb b fl tv sem qv l s1 bf _ E (local_wf _ _ _ _ L1) C1 H1 F) as (v & s2 & E2 & nb & Ev & L2 & C2 & D); auto; [intros [X|X]; [lia | contradiction] | intros X; specialize (In_E _ X); lia |].
    ev Ev. assert (Nb2 : ~ In b (nb ++ E2)). { eapply new_out; [exact L2 | destruct L1; lia | intros [X|X]; [lia | contradiction]]. }
    assert (H2 : hp s2 b = Some (mk_b true [ud; cb; fl; tv; sem; qv])). { rewrite (local_old _ _ _ _ b L2); [exact H1 | destruct L1; lia | intros [X|X]; [lia | contradiction]]. }
    assert (LL : local (b :: E) (nb ++ b :: E2) s s2).
    { pose proof (call _ _ _ _ _ _ _ L0 L1 ltac:(cbn; tauto)) as LA. cbn [app] in LA. eapply local_trans; [exact LA|]. eapply local_eqv; [exact (local_frame _ _ [b] _ _ L2 ltac:(intros x [<-|[]]; destruct L1; lia)) | |]; intros x; rewrite ?in_app_iff; cbn; tauto. }
    destruct (store_step s2 b 0 2 _ VT [ud; cb; VT; tv; sem; qv] (local_wf _ _ _ _ L2) H2 eq_refl) as (s3 & E3 & L3 & H3). ev E3. cbn [mine] in H3.
    assert (C3 : ctx x0 x2 s3 ud cb E2). { eapply ctx_same; [exact C2 | exact L3 | eapply ctx_in; [exact (local_wf _ _ _ _ L2) | exact C2] | intros x X [<-|[]]; apply Nb2, in_or_app; auto]. }
    assert (L03 : local (b :: E) (nb ++ b :: E2) s s3). { eapply call0; [exact LL | exact L3 |]. intros x [<-|[]]. apply in_or_app. cbn. auto. }
    destruct D as [(-> & ->)|(bf' & c' & -> & -> & Hb & Nf)].
    + exists s3, E2. split; [reflexivity|]. split; [exact L03|]. split; [exact H3|]. split; [exact C3|]. exact Nb2.
    + cbn [app] in *. assert (Nbb : bf' <> b) by (intros ->; apply Nb2; left; reflexivity). assert (Hb3 : hp s3 bf' = Some (mk_b true c')). { rewrite (local_old _ _ _ _ bf' L3); [exact Hb | eapply live_lt; [exact (local_wf _ _ _ _ L2) | exact Hb] | intros [X|[]]; congruence]. }
      destruct (free_step s3 bf' c' (local_wf _ _ _ _ L3) Hb3) as (s4 & E4 & L4 & H4). rewrite E4. exists s4, E2. split; [reflexivity|].
      assert (Lb4 : hp s4 b = hp s3 b). { apply (local_old _ _ _ _ b L4); [eapply live_lt; [exact (local_wf _ _ _ _ L3) | exact H3] | intros [X|[]]; congruence]. }
      split; [|split; [rewrite Lb4; exact H3|]; split; [|intros X; apply Nb2; right; exact X]].
      * eapply local_drop; [exact (call1 _ _ _ _ _ _ L03 L4 ltac:(cbn; tauto)) | cbn; tauto|]. intros x [<-|X] (c & Y); [congruence | exact X].
      * eapply ctx_same; [exact C3 | exact L4 | eapply ctx_in; [exact (local_wf _ _ _ _ L3) | exact C3] | intros x X [<-|[]]; contradiction].
Qed.
