From Verif Require Import CBase RingBuffer2Model LifeModel LifeSpec LifeProof LifeProof2 LifeProof3 LifeProof4.

(** an object depends on its blocks only *)
Definition same_on (bs : list nat) (h h' : nat -> option block) : Prop := forall x, In x bs -> h' x = h x.
Lemma ring_same h h' b : ring_at h b -> h' b = h b -> ring_at h' b.
Proof. intros (i & o & z & H) E. exists i, o, z. rewrite E. exact H. Qed.
Lemma queue_same f h h' b : queue_at f h b -> h' b = h b -> queue_at f h' b.
Proof. intros (i & o & z & w & H) E. exists i, o, z, w. rewrite E. exact H. Qed.
Lemma handler_same f h h' ud cb b bs : handler_at f h ud cb b bs -> same_on bs h h' -> handler_at f h' ud cb b bs.
Proof.
  intros (fl & t & th & q & sem & sb & Hf & Hb & Ht & Hth & Q & S & -> & N) Sm. exists fl, t, th, q, sem, sb. split; [exact Hf|]. split; [rewrite Sm; [exact Hb | cbn; auto]|]. split; [rewrite Sm; [exact Ht | cbn; auto]|]. split; [rewrite Sm; [exact Hth | cbn; auto]|].
  split; [eapply queue_same; [exact Q | apply Sm; cbn; auto]|]. split; [|auto]. destruct S as [S|(m & -> & -> & Hm)]; [auto|]. right. exists m. split; [reflexivity|]. split; [reflexivity|]. rewrite Sm; [exact Hm | cbn; auto 7].
Qed.
Lemma obj_same h h' k v bs : obj h k v bs -> same_on bs h h' -> obj h' k v bs.
Proof.
  intros (b & -> & O) S. exists b. split; [reflexivity|]. destruct k.
  - destruct O as (-> & O). split; [reflexivity|]. eapply ring_same; [exact O | apply S; left; reflexivity].
  - destruct O as (-> & i & o & z & O). split; [reflexivity|]. exists i, o, z. rewrite S; [exact O | left; reflexivity].
  - destruct O as (-> & i & o & z & O). split; [reflexivity|]. exists i, o, z. rewrite S; [exact O | left; reflexivity].
  - destruct O as (-> & i & o & z & O). split; [reflexivity|]. exists i, o, z. rewrite S; [exact O | left; reflexivity].
  - destruct O as (-> & O). split; [reflexivity|]. eapply queue_same; [exact O | apply S; left; reflexivity].
  - destruct O as (-> & O). split; [reflexivity|]. eapply queue_same; [exact O | apply S; left; reflexivity].
  - destruct O as (r & -> & N & H & R). exists r. split; [reflexivity|]. split; [exact N|]. split; [rewrite S; [exact H | cbn; auto]|]. eapply ring_same; [exact R | apply S; cbn; auto].
  - destruct O as (r & -> & N & H & (c & R)). exists r. split; [reflexivity|]. split; [exact N|]. split; [rewrite S; [exact H | cbn; auto]|]. exists c. rewrite S; [exact R | cbn; auto].
  - eapply handler_same; eauto.
  - eapply handler_same; eauto.
  - destruct O as (hd & hbs & c & fp & fb & Hb & Hh & (cc & Hc) & F & -> & N). exists hd, hbs, c, fp, fb. split; [rewrite S; [exact Hb | cbn; auto]|]. split; [eapply handler_same; [exact Hh | intros x X; apply S; cbn; rewrite in_app_iff; auto]|].
    split; [exists cc; rewrite S; [exact Hc | cbn; auto]|]. split; [|auto]. destruct F as [F|(g & -> & -> & G)]; [auto|]. right. exists g. split; [reflexivity|]. split; [reflexivity|]. rewrite S; [exact G | cbn; auto].
Qed.
Lemma local_same A B s s' bs : local A B s s' -> inside bs s -> apart bs A -> same_on bs (hp s) (hp s').
Proof. intros L I D x X. apply (local_old _ _ _ _ x L); [apply I, X | apply D, X]. Qed.
Lemma handler_in f s ud cb b bs : wf s -> handler_at f (hp s) ud cb b bs -> inside bs s.
Proof.
  intros W (fl & t & th & q & sem & sb & _ & Hb & Ht & Hth & (q1 & q2 & q3 & q4 & Q) & S & -> & _) x [<-|[<-|[<-|[<-|X]]]]; try (eapply live_lt; eassumption).
  destruct S as [(_ & ->)|(m & _ & -> & Hm)]; [contradiction|]. destruct X as [<-|[]]. eapply live_lt; eassumption.
Qed.
Lemma obj_in s k v bs : wf s -> obj (hp s) k v bs -> inside bs s.
Proof.
  intros W (b & -> & O). destruct k.
  1,2,3,4,5,6: destruct O as (-> & O); intros x [<-|[]]; destruct O as (q1 & q2 & q3 & O); try (eapply live_lt; eassumption); destruct O as (q4 & O); eapply live_lt; eassumption.
  - destruct O as (r & -> & N & H & (q1 & q2 & q3 & R)). intros x [<-|[<-|[]]]; eapply live_lt; eassumption.
  - destruct O as (r & -> & N & H & (c & R)). intros x [<-|[<-|[]]]; eapply live_lt; eassumption.
  - eapply handler_in; eauto.
  - eapply handler_in; eauto.
  - destruct O as (hd & hbs & c & fp & fb & Hb & Hh & (cc & Hc) & F & -> & N). intros x [<-|[<-|X]]; try (eapply live_lt; eassumption). apply in_app_or in X. destruct X as [X|X]; [|eapply handler_in; eauto].
    destruct F as [(_ & ->)|(g & _ & -> & G)]; [contradiction|]. destruct X as [<-|[]]. eapply live_lt; eassumption.
Qed.
Lemma obj_nodup h k v bs : obj h k v bs -> NoDup bs.
Proof.
  intros (b & -> & O). destruct k; try (destruct O as (-> & _); repeat constructor; intros []).
  1,2: destruct O as (r & -> & N & _); constructor; [intros [X|[]]; congruence | repeat constructor; intros []].
  1,2: destruct O as (fl & t & th & q & sem & sb & _ & _ & _ & _ & _ & _ & _ & N); exact N.
  destruct O as (hd & hbs & c & fp & fb & _ & _ & _ & _ & _ & N). exact N.
Qed.

Lemma fl_init_step s len qs : wf s -> 0 <= qs <= 1048576 -> exists v s', fl_init len qs true s = Ret (v, s') /\ ((v = V0 /\ local [] [] s s') \/ (exists bs, local [] bs s s' /\ obj (hp s') KFl v bs)).
Proof.
  intros W Hq. unfold fl_init. start L s W (@nil nat). { apply in_none. }
  destruct (len <? 2). { exists V0, s. split; [reflexivity|]. left. auto. } destruct (qs <? 2). { exists V0, s. split; [reflexivity|]. left. auto. }
  destruct (calloc_step s 1 W) as (a & s1 & E1 & [(-> & L1)|(c & -> & L1 & B & H)]); ev E1; donull; cbn [repeat] in *.
  { exists V0, s1. split; [reflexivity|]. left. auto. }
  done_call L L1. destruct (calloc_step s1 3 (local_wf _ _ _ _ L)) as (a & s2 & E2 & [(-> & L2)|(f & -> & L2 & Bf & Hf)]); ev E2; donull; cbn [repeat] in *.
  { done_call L L2. dofree L. exists V0. eexists. split; [reflexivity|]. left. split; [reflexivity|]. drop L. }
  assert (N : c <> f) by (eapply neq_fresh; [exact L | exact Bf | sub]). done_call L L2. dostore L.
  replace (u32 (qs * 1024)) with (qs * 1024) by (unfold u32; rewrite Z.mod_small; unfold two32; lia).
  match goal with |- context [bnd (hd_create _ _ _ _) _ ?s0] => destruct (hd_create_step false s0 (qs * 1024) (VP f 0) VT (local_wf _ _ _ _ L)) as (v & s4 & E4 & D4); [lia | discriminate | discriminate|] end. ev E4. clear E4.
  destruct D4 as [(-> & L4)|(hd & hbs & -> & L4 & Hh)].
  - done_call L L4. dostore L. donull. dofree L. dofree L. exists V0. eexists. split; [reflexivity|]. left. split; [reflexivity|]. drop L.
  - assert (Fr : forall x, In x hbs -> x <> f /\ x <> c). { intros x X. destruct L4 as (_ & _ & _ & R & _). destruct (R x X) as ([[]|Y] & _). pose proof (local_in _ _ _ _ L f ltac:(cbn; auto)). pose proof (local_in _ _ _ _ L c ltac:(cbn; auto)). lia. }
    assert (LL : local [] (f :: c :: hbs) s s4). { eapply local_eqv; [exact (call _ _ _ _ _ _ _ L L4 ltac:(sub)) | intros x; reflexivity | intros x; cbn [In]; rewrite in_app_iff; cbn [In]; tauto]. }
    carry L L4. clear L L4. match goal with |- context [bnd (store _ _ _) _ ?s0] => destruct (store_step s0 f 0 0 _ (VP hd 0) [VP hd 0; V0; VP c 0] (local_wf _ _ _ _ LL) Hf eq_refl) as (s5 & E5 & L5 & H5) end. ev E5. clear E5. cbn [mine] in H5.
    assert (Hh5 : handler_at false (hp s5) (VP f 0) VT hd hbs). { eapply handler_same; [exact Hh|]. eapply local_same; [exact L5 | intros x X; apply (local_in _ _ _ _ LL); cbn; auto | intros x X [Y|[]]; destruct (Fr x X); congruence]. }
    assert (Hc5 : hp s5 c = Some (mk_b true [V0])). { rewrite (local_old _ _ _ _ c L5); [exact H | apply (local_in _ _ _ _ LL); cbn; auto | intros [X|[]]; congruence]. }
    pose proof (call0 _ _ _ _ _ _ LL L5 ltac:(intros x [<-|[]]; left; reflexivity)) as L. clear LL L5 H Hf Hh. donull.
    destruct (fresh_step s5 true [VI 0] (local_wf _ _ _ _ L)) as (p & s6 & E6 & L6 & B6 & H6). ev E6. doload. ev (free_ok s6 p [VI 0] H6).
    destruct (free_step s6 p _ (local_wf _ _ _ _ L6) H6) as (s7 & E7 & L7 & H7). rewrite (free_ok s6 p [VI 0] H6) in E7. injection E7 as E7. rewrite E7.
    assert (L57 : local [] [] s5 s7) by exact (local_trans _ _ _ _ _ _ L6 L7).
    exists (VP f 0), s7. split; [reflexivity|]. right. exists (f :: c :: [] ++ hbs). split; [exact (call1 _ _ _ _ _ _ L L57 ltac:(cbn; tauto))|]. exists f. split; [reflexivity|]. exists hd, hbs, c, V0, [].
    assert (Sm : forall x, In x (f :: c :: hbs) -> hp s7 x = hp s5 x) by (intros x X; apply (local_old _ _ _ _ x L57); [apply (local_in _ _ _ _ L), X | intros []]).
    split; [rewrite Sm; [exact H5 | cbn; auto]|]. split; [eapply handler_same; [exact Hh5 | intros x X; apply Sm; cbn; auto]|]. split; [exists [V0]; rewrite Sm; [exact Hc5 | cbn; auto]|]. split; [auto|]. split; [reflexivity|].
    cbn [app]. constructor; [intros [X|X]; [congruence | destruct (Fr f X); congruence]|]. constructor; [intros X; destruct (Fr c X); congruence|]. destruct Hh5 as (? & ? & ? & ? & ? & ? & ? & ? & ? & ? & ? & ? & ? & Nd). exact Nd.
Qed.
Lemma fl_deinit_step l s v bs : wf s -> obj (hp s) KFl v bs -> exists s', fl_deinit l v s = Ret (0, V0, s') /\ local bs [] s s'.
Proof.
  intros W O. pose proof (obj_in _ _ _ _ W O) as In_bs. destruct O as (f & -> & hd & hbs & c & fp & fb & Hb & Hh & (cc & Hc) & F & -> & N). unfold fl_deinit. donull.
  assert (L : local (f :: c :: fb ++ hbs) (f :: c :: fb ++ hbs) s s) by (apply local_refl; assumption). clear In_bs.
  doload. donull. rewrite bnd_assoc.
  destruct Hh as (fl & t & th & q & sem & sb & Hf & Hhd & Ht & Hth & Q & S & -> & Nh).
  assert (Cx : ctx (VP hd 0) (VP c 0) s (VP f 0) VT (f :: fb)).
  { right. split; [reflexivity|]. exists f, fb. split; [reflexivity|]. split; [reflexivity|]. exists fp. split; [exact Hb|]. destruct F as [F|(g & -> & -> & G)]; [left; exact F | right]. exists g. split; [reflexivity|]. split; [reflexivity|]. split; [|exact G].
    intros ->. apply NoDup_cons_iff in N. destruct N as (N & _). apply N. cbn. auto. }
  assert (Nd : NoDup (hd :: [t; th] ++ [q] ++ sb ++ f :: fb)).
  { clear -N. apply NoDup_cons_iff in N. destruct N as (N1 & N). apply NoDup_cons_iff in N. destruct N as (N2 & N). apply nodup_app in N. destruct N as (N3 & N4 & N5).
    replace (hd :: [t; th] ++ [q] ++ sb ++ f :: fb) with ((hd :: t :: th :: q :: sb) ++ f :: fb) by reflexivity. cbn [In] in N1. rewrite in_app_iff in N1.
    assert (Ap : apart (hd :: t :: th :: q :: sb) (f :: fb)). { intros x X [<-|Y]; [tauto | exact (N5 x Y X)]. }
    revert N4 Ap. generalize (hd :: t :: th :: q :: sb). intros A NA Ap. assert (NB : NoDup (f :: fb)) by (constructor; tauto). revert NA Ap. clear -NB. induction A as [|a A IH]; [intros; exact NB|]. intros NA Ap. cbn. inversion NA; subst.
    constructor; [rewrite in_app_iff; intros [X|X]; [contradiction | exact (Ap a (or_introl eq_refl) X)]|]. apply IH; [assumption|]. intros x X. apply Ap. right. exact X. }
  destruct (hd_destroy_step (VP hd 0) (VP c 0) false l s hd (VP f 0) VT fl (VP t 0) sem (VP q 0) sb [t; th] [q] (f :: fb) W Cx Hhd) as (s1 & E' & E1 & L1 & C1 & _); auto.
  { right. exists t, th. auto. } { right. exists q. auto. } { discriminate. } { discriminate. }
  ev E1. clear E1. destruct C1 as [(X & _)|(_ & f' & fb' & Xf & -> & fp' & H1 & F1)]; [discriminate|]. injection Xf as <-.
  assert (Oc : ~ In c (hd :: [t; th] ++ [q] ++ sb ++ f :: fb)).
  { clear -N. apply NoDup_cons_iff in N. destruct N as (N1 & N). apply NoDup_cons_iff in N. destruct N as (N2 & N). cbn [In app] in *. rewrite ?in_app_iff in *. cbn [In] in *. intuition. }
  assert (Hc1 : hp s1 c = Some (mk_b true cc)). { rewrite (local_old _ _ _ _ c L1); [exact Hc | eapply live_lt; eassumption | exact Oc]. }
  assert (Oc' : ~ In c (f :: fb')) by (eapply new_out; [exact L1 | eapply live_lt; eassumption | exact Oc]).
  assert (LL : local (f :: c :: fb ++ hd :: t :: th :: q :: sb) (f :: c :: fb') s s1).
  { eapply local_eqv; [eapply (callx _ _ _ _ [c]); [exact L | exact L1 |] | intros x; reflexivity |]; intros x; cbn [In app]; rewrite ?in_app_iff; cbn [In]; rewrite ?in_app_iff; cbn [In]; tauto. }
  clear L L1 Cx Nd Hhd Ht Hth Q S F Hb Hc. cbn [In] in Oc'. split_nin.
  destruct F1 as [(-> & ->)|(g & -> & -> & Ng & G)].
  - dostore LL. doload. donull. rewrite bnd_assoc. dofree LL. dostore LL. doload. donull. match goal with |- context [bnd (ret tt) _ ?s0] => ev (eq_refl : ret tt s0 = Ret (tt, s0)) end. dofree LL.
    eexists. split; [reflexivity|]. drop LL.
  - assert (c <> g) by (intros ->; cbn in *; tauto). dostore LL. doload. donull. rewrite bnd_assoc. dofree LL. dostore LL. doload. donull. rewrite bnd_assoc. dofree LL. dostore LL. dofree LL.
    eexists. split; [reflexivity|]. drop LL.
Qed.
Lemma realloc_step s d c : wf s -> hp s d = Some (mk_b true c) -> exists v s', realloc_ (VP d 0) 1 s = Ret (v, s') /\ ((v = V0 /\ local [] [] s s') \/ exists d', v = VP d' 0 /\ local [d] [d'] s s' /\ (nxt s <= d')%nat /\ liblive (hp s') d').
Proof.
  intros W H. unfold realloc_. start L s W [d]. { eapply in_one; eauto. } destruct (tick_step s W) as (ok & s1 & E1 & L1). ev E1. destruct ok.
  - done_call L L1. destruct (fresh_step s1 true (repeat VU 1) (local_wf _ _ _ _ L)) as (d' & s2 & E2 & L2 & B2 & H2). ev E2. assert (N : d <> d') by (eapply neq_fresh; [exact L | exact B2 | sub]). assert (B' : (nxt s <= d')%nat) by (destruct L; lia). done_call L L2. dofree L.
    eexists; eexists. split; [reflexivity|]. right. exists d'. split; [reflexivity|]. split; [drop L|]. split; [exact B' | eexists; exact H2].
  - exists V0, s1. split; [reflexivity|]. left. auto.
Qed.
