From Verif Require Import CBase RingBuffer2Model LifeModel LifeSpec LifeProof LifeProof2 LifeProof3 LifeProof4 LifeProof5.

Lemma create_spec k n m rep s : wf s -> sizes_ok k n m rep ->
  exists v s', create k n m rep s = Ret (v, s') /\ ((v = V0 /\ local [] [] s s') \/ exists bs, local [] bs s s' /\ obj (hp s') k v bs).
Proof.
  intros W Z. destruct k; cbn [create sizes_ok] in *.
  - destruct (rb_create_step s n W Z) as (v & s' & E & [D|(b & -> & L & _ & R)]); exists v, s' || (exists (VP b 0), s'); (split; [exact E|]); [left; exact D|].
    right. exists [b]. split; [exact L|]. exists b. auto.
  - destruct (fresh_step s false (repeat VU 5) W) as (u & s1 & E1 & L1 & B1 & H1). ev E1.
    destruct (rb_with_mem_step s1 u n false [] VU VU VU VU VU (local_wf _ _ _ _ L1) (Nat.le_0_l _) H1 ltac:(lia)) as (v & s2 & E2 & L2 & D). cbn [length] in E2. rewrite E2. exists v, s2. split; [reflexivity|].
    pose proof (local_trans _ _ _ _ _ _ L1 L2) as L. destruct D as [(-> & H2 & _)|(-> & _ & i & o & z & H2)].
    + left. split; [reflexivity|]. rewrite H1 in H2. drop L.
    + right. exists [u]. split; [exact L|]. exists u. split; [reflexivity|]. split; [reflexivity|]. cbn in H2. eauto.
  - destruct (rg_create_step s n W) as (v & s' & E & [D|(b & -> & L & _ & R)]); exists v, s' || (exists (VP b 0), s'); (split; [exact E|]); [left; exact D|].
    right. exists [b]. split; [exact L|]. exists b. auto.
  - destruct (fresh_step s false (repeat VU 5) W) as (u & s1 & E1 & L1 & B1 & H1). ev E1.
    destruct (rg_with_mem_step s1 u n false VU VU VU VU VU (local_wf _ _ _ _ L1) H1) as (v & s2 & E2 & L2 & D). rewrite E2. exists v, s2. split; [reflexivity|].
    pose proof (local_trans _ _ _ _ _ _ L1 L2) as L. destruct D as [(-> & H2)|(-> & i & o & z & H2)].
    + left. split; [reflexivity|]. rewrite H1 in H2. drop L.
    + right. exists [u]. split; [exact L|]. exists u. split; [reflexivity|]. split; [reflexivity|]. cbn in H2. eauto.
  - destruct (mq_create_step s n W Z) as (v & s' & E & [D|(b & -> & L & _ & R)]); exists v, s' || (exists (VP b 0), s'); (split; [exact E|]); [left; exact D|].
    right. exists [b]. split; [exact L|]. exists b. auto.
  - destruct (fq_create_step s n m W) as (v & s' & E & [D|(b & -> & L & _ & R)]); try lia; exists v, s' || (exists (VP b 0), s'); (split; [exact E|]); [left; exact D|].
    right. exists [b]. split; [exact L|]. exists b. auto.
  - destruct (ac_create_step s n W Z) as (v & s' & E & [D|(b & r & -> & L & _ & _ & N & H & R)]); exists v, s' || (exists (VP b 0), s'); (split; [exact E|]); [left; exact D|].
    right. exists [b; r]. split; [exact L|]. exists b. split; [reflexivity|]. exists r. auto.
  - destruct (sb_create_step s W) as (v & s' & E & [D|(b & r & -> & L & _ & _ & N & H & R)]); exists v, s' || (exists (VP b 0), s'); (split; [exact E|]); [left; exact D|].
    right. exists [b; r]. split; [exact L|]. exists b. split; [reflexivity|]. exists r. auto.
  - destruct (hd_create_step false s n V0 V0 W Z) as (v & s' & E & [D|(b & bs & -> & L & R)]); try discriminate; exists v, s' || (exists (VP b 0), s'); (split; [exact E|]); [left; exact D|].
    right. exists bs. split; [exact L|]. exists b. auto.
  - destruct (hd_create_step true s n V0 V0 W Z) as (v & s' & E & [D|(b & bs & -> & L & R)]); try discriminate; exists v, s' || (exists (VP b 0), s'); (split; [exact E|]); [left; exact D|].
    right. exists bs. split; [exact L|]. exists b. auto.
  - destruct Z as (Z & ->). apply fl_init_step; auto.
Qed.

Lemma hd_destroy_obj f l s b bs : wf s -> handler_at f (hp s) V0 V0 b bs -> exists s', hd_destroy f l (VP b 0) s = Ret (V0, s') /\ local bs [] s s'.
Proof.
  intros W (fl & t & th & q & sem & sb & Hf & Hb & Ht & Hth & Q & S & -> & N).
  destruct (hd_destroy_step V0 V0 f l s b V0 V0 fl (VP t 0) sem (VP q 0) sb [t; th] [q] [] W) as (s1 & E' & E1 & L1 & C1 & _); auto; try discriminate.
  { left. auto. } { right. exists t, th. auto. } { right. exists q. auto. } { cbn. rewrite app_nil_r. exact N. }
  exists s1. split; [exact E1|]. destruct C1 as [(_ & ->)|(X & _)]; [|discriminate]. cbn in L1. rewrite app_nil_r in L1. exact L1.
Qed.
Lemma destroy_spec k l s v bs : wf s -> obj (hp s) k v bs -> exists s', destroy k l v s = Ret (V0, s') /\ local bs [] s s'.
Proof.
  intros W O. destruct k; cbn [destroy].
  11: { destruct (fl_deinit_step l s v bs W O) as (s' & E & L). ev E. exists s'. auto. }
  all: destruct O as (b & -> & O).
  - destruct O as (-> & O). destruct (rb_destroy_own s b W O) as (s' & E & L & _). exists s'. auto.
  - destruct O as (-> & i & o & z & O). destruct (rb_destroy_emb s b false [] W (Nat.le_0_l _)) as (s' & E & L & i' & o' & z' & H); [exists i, o, z; exact O|]. exists s'. split; [exact E|]. drop L.
  - destruct O as (-> & O). destruct (rg_destroy_own s b W) as (s' & E & L & _); [destruct O as (i & o & z & O); exists i, o, z; exact O|]. exists s'. auto.
  - destruct O as (-> & i & o & z & O). destruct (rg_destroy_mem s b false W) as (s' & E & L & H); [exists i, o, z; exact O|]. exists s'. split; [exact E|]. rewrite O in H. drop L.
  - destruct O as (-> & O). destruct (q_destroy_step false s b W O) as (s' & E & L & _). exists s'. auto.
  - destruct O as (-> & O). destruct (q_destroy_step true s b W O) as (s' & E & L & _). exists s'. auto.
  - destruct O as (r & -> & N & H & R). destruct (ac_destroy_step s b r W N H R) as (s' & E & L). exists s'. auto.
  - destruct O as (r & -> & N & H & R). destruct (sb_destroy_step s b r W N H R) as (s' & E & L). exists s'. auto.
  - apply hd_destroy_obj; auto.
  - apply hd_destroy_obj; auto.
Qed.
Lemma destroy_null k l s : k <> KMq -> destroy k l V0 s = Ret (V0, s).
Proof. destruct k; intros N; try reflexivity. congruence. Qed.

Lemma grow_none k s : k <> KSb -> k <> KFl -> forall v, grow k v s = Ret (tt, s).
Proof. intros A B v. destruct k; try reflexivity; congruence. Qed.
Lemma grow_spec k s v bs : wf s -> obj (hp s) k v bs -> exists s' bs', grow k v s = Ret (tt, s') /\ local bs bs' s s' /\ obj (hp s') k v bs'.
Proof.
  intros W O. pose proof (obj_in _ _ _ _ W O) as I. pose proof (obj_nodup _ _ _ _ O) as Nd.
  destruct k.
  1,2,3,4,5,6,7,9,10: exists s, bs; rewrite grow_none by discriminate; split; [reflexivity|]; split; [apply local_refl; auto | exact O].
  - destruct O as (b & -> & d & -> & N & H & (c & D)). cbn [grow]. unfold sb_grow. rewrite bnd_assoc. doload. rewrite bnd_assoc. destruct (realloc_step s d c W D) as (v & s1 & E1 & [(-> & L1)|(d' & -> & L1 & B1 & H1)]); ev E1; rewrite bnd_assoc; donull.
    + ev (eq_refl : ret (-4) s1 = Ret (-4, s1)). exists s1, [b; d]. split; [reflexivity|]. split.
      * eapply call1; [apply local_refl; [exact W | exact I] | exact L1 | intros x []].
      * eapply obj_same; [exists b; split; [reflexivity|]; exists d; repeat (split; [eauto|]); exists c; eauto|]. eapply local_same; eauto. intros x X [].
    + assert (H2 : hp s1 b = Some (mk_b true [VP d 0])). { rewrite (local_old _ _ _ _ b L1); [exact H | apply I; left; reflexivity | intros [X|[]]; congruence]. }
      assert (N' : b <> d') by (pose proof (I b (or_introl eq_refl)); lia).
      rewrite bnd_assoc. destruct (store_step s1 b 0 0 _ (VP d' 0) [VP d' 0] (local_wf _ _ _ _ L1) H2 eq_refl) as (s2 & E2 & L2 & H3). ev E2. ev (eq_refl : ret 0 s2 = Ret (0, s2)). exists s2, [b; d']. split; [reflexivity|]. split.
      * assert (LL : local [b; d] ([d'] ++ [b]) s s1). { eapply callx; [apply local_refl; [exact W | exact I] | exact L1 | intros x; cbn; tauto]. }
        eapply local_eqv; [exact (call0 _ _ _ _ _ _ LL L2 ltac:(sub)) | intros x; reflexivity | intros x; cbn; tauto].
      * exists b. split; [reflexivity|]. exists d'. split; [reflexivity|]. split; [exact N'|]. split; [exact H3|]. destruct H1 as (c' & H1). exists c'. rewrite (local_old _ _ _ _ d' L2); [exact H1 | eapply live_lt; [exact (local_wf _ _ _ _ L1) | exact H1] | intros [X|[]]; congruence].
  - pose proof O as O0. destruct O as (f & -> & hd & hbs & c & fp & fb & Hb & Hh & (cc & Hc) & F & -> & N). cbn [grow]. unfold fl_grow. rewrite bnd_assoc. doload. rewrite bnd_assoc.
    destruct (realloc_step s c cc W Hc) as (v & s1 & E1 & [(-> & L1)|(d' & -> & L1 & B1 & H1)]); ev E1; rewrite bnd_assoc; donull.
    + ev (eq_refl : ret false s1 = Ret (false, s1)). exists s1, (f :: c :: fb ++ hbs). split; [reflexivity|]. split.
      * eapply call1; [apply local_refl; [exact W | exact I] | exact L1 | intros x []].
      * eapply obj_same; [exact O0|]. eapply local_same; eauto. intros x X [].
    + assert (Fc : f <> c) by (intros ->; apply NoDup_cons_iff in N; destruct N as (N & _); apply N; left; reflexivity).
      assert (Oc : ~ In c (fb ++ hbs)) by (apply NoDup_cons_iff in N; destruct N as (_ & N); apply NoDup_cons_iff in N; apply N).
      assert (Of : ~ In f (fb ++ hbs)) by (apply NoDup_cons_iff in N; destruct N as (N & _); intros X; apply N; right; exact X).
      assert (Nr : NoDup (fb ++ hbs)) by (apply NoDup_cons_iff in N; destruct N as (_ & N); apply NoDup_cons_iff in N; apply N).
      assert (H2 : hp s1 f = Some (mk_b true [VP hd 0; fp; VP c 0])). { rewrite (local_old _ _ _ _ f L1); [exact Hb | apply I; left; reflexivity | intros [X|[]]; congruence]. }
      assert (N' : forall x, In x (f :: c :: fb ++ hbs) -> x <> d') by (intros x X; pose proof (I x X); lia).
      rewrite bnd_assoc. destruct (store_step s1 f 0 2 _ (VP d' 0) [VP hd 0; fp; VP d' 0] (local_wf _ _ _ _ L1) H2 eq_refl) as (s2 & E2 & L2 & H3). ev E2. ev (eq_refl : ret true s2 = Ret (true, s2)). exists s2, (f :: d' :: fb ++ hbs). split; [reflexivity|].
      assert (Sm : same_on (fb ++ hbs) (hp s) (hp s2)). { intros x X. assert (x < nxt s)%nat by (apply I; cbn; auto). rewrite (local_old _ _ _ _ x L2); [|destruct L1; lia | intros [Y|[]]; congruence]. apply (local_old _ _ _ _ x L1); [assumption | intros [Y|[]]; congruence]. }
      split.
      * assert (LL : local (f :: c :: fb ++ hbs) ([d'] ++ f :: fb ++ hbs) s s1). { eapply callx; [apply local_refl; [exact W | exact I] | exact L1 | intros x; cbn; tauto]. }
        eapply local_eqv; [exact (call0 _ _ _ _ _ _ LL L2 ltac:(sub)) | intros x; reflexivity | intros x; cbn; tauto].
      * exists f. split; [reflexivity|]. exists hd, hbs, d', fp, fb. split; [exact H3|]. split; [eapply handler_same; [exact Hh | intros x X; apply Sm, in_or_app; auto]|].
        split; [destruct H1 as (c' & H1); exists c'; rewrite (local_old _ _ _ _ d' L2); [exact H1 | eapply live_lt; [exact (local_wf _ _ _ _ L1) | exact H1] | intros [X|[]]; subst; apply (N' d'); cbn; auto]|].
        split; [destruct F as [F|(g & -> & -> & G)]; [auto | right; exists g; split; [reflexivity|]; split; [reflexivity|]; rewrite Sm; [exact G | left; reflexivity]]|]. split; [reflexivity|].
        constructor; [intros [X|X]; [apply (N' f); cbn; auto | contradiction]|]. constructor; [intros X; apply (N' d'); cbn; auto | exact Nr].
Qed.
