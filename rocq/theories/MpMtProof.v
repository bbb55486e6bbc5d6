(** Proofs for C77, part 1: code whose accesses stay away from some bytes is not disturbed by writes to them *)
From Verif Require Import CBase SeqLib MpliteModel MpliteProof2 MpliteProof6 MpMtModel.

Lemma mread_ext {B} (m m' : list B) off n : 0 <= n -> zlen m = zlen m' -> (forall j, 0 <= j < n -> znth (off + j) m = znth (off + j) m') -> mread m off n = mread m' off n.
Proof.
  intros N L E. destruct (Z_lt_ge_dec off 0) as [O|O].
  { unfold mread. destruct (0 <=? off) eqn:X; [lia|]. reflexivity. }
  destruct (Z_le_gt_dec (off + n) (zlen m)) as [I|I].
  - rewrite !mread_ok by lia. f_equal. apply znth_ext; [rewrite !zlen_zsub by lia; reflexivity|]. intros i R. rewrite zlen_zsub in R by lia. rewrite !znth_zsub by lia. apply E. lia.
  - unfold mread. rewrite <- L. destruct ((0 <=? off) && (0 <=? n) && (off + n <=? zlen m)) eqn:X; [lia|reflexivity].
Qed.

Lemma mload_some {B} (l : list B) i x : mload l i = Ret x -> znth i l = Some x.
Proof. unfold mload. destruct (znth i l); intro E; [injection E as ->; reflexivity|discriminate E]. Qed.
Section W.
Variables (G GC : Z -> Prop).
Section A.
Context {A : Type}.
Implicit Types (b : prog A) (Q : mp -> A -> Prop).
(** run alone, b ends in a state with Q, reading and writing no byte of the pool in G and writing no control byte in GC *)
Fixpoint wp b (h : mp) Q : Prop :=
  match b with
  | Done a => Q h a
  | Ld off k => (forall j, 0 <= j < 4 -> ~ G (off + j)) /\ exists v, load_int (mp_mem h) off = Ret v /\ wp (k v) h Q
  | St off v k => (forall j, 0 <= j < 4 -> ~ G (off + j)) /\ exists m, store_int (mp_mem h) off v = Ret m /\ wp k (set_mem h m) Q
  | LdB off k => ~ G off /\ exists v, mload (mp_mem h) off = Ret v /\ wp (k v) h Q
  | StB off v k => ~ G off /\ exists m, mstore (mp_mem h) off v = Ret m /\ wp k (set_mem h m) Q
  | LdC i k => exists v, mload (mp_ctrl h) i = Ret v /\ wp (k v) h Q
  | StC i v k => ~ GC i /\ exists c, mstore (mp_ctrl h) i v = Ret c /\ wp k (set_ctrl h c) Q
  | LdF l k => exists v, mload (mp_free h) l = Ret v /\ wp (k v) h Q
  | StF l v k => exists f, mstore (mp_free h) l v = Ret f /\ wp k (set_free h f) Q
  | LdS k => wp (k (getc h)) h Q
  | StS s k => wp k (setc h s) Q
  | Bad => False
  end.
Definition ends b (h he : mp) (r : A) : Prop := wp b h (fun h1 a => h1 = he /\ a = r).
Lemma wp_mono Q Q' (H : forall h a, Q h a -> Q' h a) b : forall h, wp b h Q -> wp b h Q'.
Proof.
  induction b; intro h; cbn [wp]; auto.
  - intros (F & x & E & W). split; [exact F|]. exists x. auto.
  - intros (F & x & E & W). split; [exact F|]. exists x. auto.
  - intros (F & x & E & W). split; [exact F|]. exists x. auto.
  - intros (F & x & E & W). split; [exact F|]. exists x. auto.
  - intros (x & E & W). exists x. auto.
  - intros (F & x & E & W). split; [exact F|]. exists x. auto.
  - intros (x & E & W). exists x. auto.
  - intros (x & E & W). exists x. auto.
Qed.
Lemma wp_ends Q b : forall h, wp b h Q -> exists he r, ends b h he r /\ Q he r.
Proof.
  unfold ends. induction b; intro h; cbn [wp]; auto.
  - intro W. exists h, a. auto.
  - intros (F & x & E & W). destruct (H _ _ W) as (he & r & W1 & W2). exists he, r. eauto 10.
  - intros (F & x & E & W). destruct (IHb _ W) as (he & r & W1 & W2). exists he, r. eauto 10.
  - intros (F & x & E & W). destruct (H _ _ W) as (he & r & W1 & W2). exists he, r. eauto 10.
  - intros (F & x & E & W). destruct (IHb _ W) as (he & r & W1 & W2). exists he, r. eauto 10.
  - intros (x & E & W). destruct (H _ _ W) as (he & r & W1 & W2). exists he, r. eauto 10.
  - intros (F & x & E & W). destruct (IHb _ W) as (he & r & W1 & W2). exists he, r. eauto 10.
  - intros (x & E & W). destruct (H _ _ W) as (he & r & W1 & W2). exists he, r. eauto 10.
  - intros (x & E & W). destruct (IHb _ W) as (he & r & W1 & W2). exists he, r. eauto 10.
  - contradiction.
Qed.
Lemma wp_and Q Q' b : forall h, wp b h Q -> wp b h Q' -> wp b h (fun h a => Q h a /\ Q' h a).
Proof.
  induction b; intro h; cbn [wp]; auto.
  all: repeat match goal with |- ?P /\ ?R -> _ => intros [? ?] | |- (exists _, _) -> _ => intros (? & ? & ?) | |- _ -> _ => intro end.
  all: repeat match goal with H : exists _, _ |- _ => destruct H as (? & ? & ?) end.
  all: repeat match goal with E : ?x = Ret ?a, E' : ?x = Ret ?a' |- _ => rewrite E in E'; injection E' as <- end.
  all: try (split; [assumption|]). all: try (eexists; split; [eassumption|]); auto.
Qed.
Lemma ends_det b h he r he' r' : ends b h he r -> ends b h he' r' -> he = he' /\ r = r'.
Proof.
  intros X Y. pose proof (wp_and _ _ b h X Y) as W. apply wp_ends in W as (h1 & r1 & _ & (-> & ->) & (-> & ->)). auto.
Qed.
(** what a step leaves alone *)
Definition quiet (h h' : mp) : Prop :=
  mp_sz h' = mp_sz h /\ mp_n h' = mp_n h /\ zlen (mp_mem h') = zlen (mp_mem h) /\ (forall a, G a -> znth a (mp_mem h') = znth a (mp_mem h)) /\ (forall i, GC i -> znth i (mp_ctrl h') = znth i (mp_ctrl h)).
Lemma quiet_refl h : quiet h h. Proof. repeat split; auto. Qed.
Lemma quiet_trans h h1 h2 : quiet h h1 -> quiet h1 h2 -> quiet h h2.
Proof.
  intros (A1 & A2 & A3 & A4 & A5) (B1 & B2 & B3 & B4 & B5). split; [congruence|]. split; [congruence|]. split; [congruence|]. split; intros x X; [rewrite B4, A4|rewrite B5, A5]; auto.
Qed.
Lemma store_int_ok m off v m' : store_int m off v = Ret m' -> zlen m' = zlen m /\ 0 <= off /\ off + 4 <= zlen m /\ forall a, znth a m' = if (off <=? a) && (a <? off + 4) then znth (a - off) (le4 v) else znth a m.
Proof.
  unfold store_int. intro E. apply mwrite_Ret in E as (O1 & O2 & ->). change (zlen (le4 v)) with 4 in *. split; [apply zlen_zwrite; [lia|change (zlen (le4 v)) with 4; lia]|]. split; [lia|]. split; [lia|].
  intro a. destruct (Z_lt_ge_dec a 0) as [N|N].
  - destruct ((off <=? a) && (a <? off + 4)) eqn:X; [lia|]. unfold znth. destruct (a <? 0) eqn:Y; [reflexivity|lia].
  - rewrite znth_zwrite; [reflexivity|lia|change (zlen (le4 v)) with 4; lia|lia].
Qed.
Lemma mstore_Ret {B} (l : list B) i x l' : mstore l i x = Ret l' -> 0 <= i < zlen l /\ zlen l' = zlen l /\ znth i l' = Some x /\ forall j, j <> i -> znth j l' = znth j l.
Proof.
  intro E. assert (R : 0 <= i < zlen l). { apply mwrite_Ret in E as (O1 & O2 & _). change (zlen [x]) with 1 in O2. lia. }
  destruct (mstore_ok l i x R) as (l2 & E2 & Y). rewrite E in E2. injection E2 as <-. auto.
Qed.
Lemma wp_step Q b h : wp b h Q -> (exists a, b = Done a /\ Q h a) \/ exists h' b', exec h b = Ret (h', b') /\ wp b' h' Q /\ quiet h h'.
Proof.
  destruct b; cbn [wp exec]; intro W; [left; eauto|right..].
  - destruct W as (F & x & -> & W). cbn [bind]. eexists _, _. split; [reflexivity|]. split; [exact W|apply quiet_refl].
  - destruct W as (F & x & E & W). rewrite E. cbn [bind]. eexists _, _. split; [reflexivity|]. split; [exact W|]. apply store_int_ok in E as (L & _ & _ & X). split; [reflexivity|]. split; [reflexivity|]. split; [exact L|]. split; [|auto].
    intros a Ga. cbn [mp_mem set_mem]. rewrite X. destruct ((off <=? a) && (a <? off + 4)) eqn:Y; [|reflexivity]. exfalso. apply (F (a - off)); [lia|]. replace (off + (a - off)) with a by lia. exact Ga.
  - destruct W as (F & x & -> & W). cbn [bind]. eexists _, _. split; [reflexivity|]. split; [exact W|apply quiet_refl].
  - destruct W as (F & x & E & W). rewrite E. cbn [bind]. eexists _, _. split; [reflexivity|]. split; [exact W|]. apply mstore_Ret in E as (_ & L & _ & X). split; [reflexivity|]. split; [reflexivity|]. split; [exact L|]. split; [|auto].
    intros a Ga. cbn [mp_mem set_mem]. apply X. congruence.
  - destruct W as (x & -> & W). cbn [bind]. eexists _, _. split; [reflexivity|]. split; [exact W|apply quiet_refl].
  - destruct W as (F & x & E & W). rewrite E. cbn [bind]. eexists _, _. split; [reflexivity|]. split; [exact W|]. apply mstore_Ret in E as (_ & L & _ & X). repeat (split; [reflexivity || auto|]).
    intros a Ga. cbn [mp_ctrl set_ctrl]. apply X. congruence.
  - destruct W as (x & -> & W). cbn [bind]. eexists _, _. split; [reflexivity|]. split; [exact W|apply quiet_refl].
  - destruct W as (x & E & W). rewrite E. cbn [bind]. eexists _, _. split; [reflexivity|]. split; [exact W|]. repeat (split; [reflexivity || auto|]). auto.
  - eexists _, _. split; [reflexivity|]. split; [exact W|apply quiet_refl].
  - eexists _, _. split; [reflexivity|]. split; [exact W|]. repeat (split; [reflexivity || auto|]). auto.
  - destruct W.
Qed.
Lemma wp_quiet Q b : forall h, wp b h Q -> wp b h (fun h' a => quiet h h' /\ Q h' a).
Proof.
  induction b; intros h W.
  { cbn [wp] in *. split; [apply quiet_refl|exact W]. }
  all: destruct (wp_step Q _ h W) as [(a & X & _)|(h' & b' & E & _ & K)]; try discriminate X; cbn [wp exec] in *.
  all: repeat match goal with H : _ /\ _ |- _ => destruct H | H : exists _, _ |- _ => destruct H end.
  all: try match goal with H : ?x = Ret ?y, E0 : bind ?x _ = _ |- _ => rewrite H in E0 end; cbn [bind] in E; try discriminate E; injection E as <- <-.
  all: try (split; [assumption|]). all: try (eexists; split; [eassumption|]).
  all: match goal with IH : forall h, wp _ _ _ -> wp _ _ _ |- wp _ _ _ => eapply wp_mono; [|apply IH; eassumption] | IH : forall v h, wp _ _ _ -> wp _ _ _ |- wp _ _ _ => eapply wp_mono; [|apply IH; eassumption] end.
  all: intros h2 r2 (K2 & Q2); split; [exact (quiet_trans _ _ _ K K2)|exact Q2].
Qed.
(** two states that differ only in bytes of the pool in G *)
Definition sim (h h' : mp) : Prop := exists m, h' = set_mem h m /\ zlen m = zlen (mp_mem h) /\ forall a, ~ G a -> znth a m = znth a (mp_mem h).
Lemma set_mem2 h m m' : set_mem (set_mem h m) m' = set_mem h m'. Proof. reflexivity. Qed.
Lemma wp_sim b : forall h he r h', ends b h he r -> sim h h' -> exists he', ends b h' he' r /\ sim he he'.
Proof.
  unfold ends. induction b; intros h he r h' W (m & -> & L & D); cbn [wp] in *.
  - destruct W as (-> & ->). exists (set_mem he m). split; [auto|]. exists m. auto.
  - destruct W as (F & x & E & W). destruct (H _ _ _ _ (set_mem h m) W) as (he' & W' & S'); [exists m; auto|]. exists he'. split; [|exact S']. split; [exact F|]. exists x. split; [|exact W'].
    rewrite <- E. cbn [mp_mem set_mem]. unfold load_int. rewrite (mread_ext m (mp_mem h) off 4); [reflexivity|lia|exact L|]. intros j J. apply D, F, J.
  - destruct W as (F & x & E & W). pose proof (store_int_ok _ _ _ _ E) as (LX & O1 & O2 & X).
    assert (exists m2, store_int m off v = Ret m2) as (m2 & E2) by (unfold store_int, mwrite in *; change (zlen (le4 v)) with 4 in *; destruct ((0 <=? off) && (off + 4 <=? zlen m)) eqn:Y; [eauto|lia]).
    pose proof (store_int_ok _ _ _ _ E2) as (LX2 & _ & _ & X2).
    destruct (IHb _ _ _ (set_mem h m2) W) as (he' & W' & S').
    { exists m2. split; [reflexivity|]. cbn [mp_mem set_mem]. split; [congruence|]. intros a NG. rewrite X, X2. destruct ((off <=? a) && (a <? off + 4)); [reflexivity|apply D, NG]. }
    exists he'. split; [|exact S']. split; [exact F|]. exists m2. split; [exact E2|exact W'].
  - destruct W as (F & x & E & W). destruct (H _ _ _ _ (set_mem h m) W) as (he' & W' & S'); [exists m; auto|]. exists he'. split; [|exact S']. split; [exact F|]. exists x. split; [|exact W'].
    cbn [mp_mem set_mem]. apply mload_znth. rewrite D by exact F. apply mload_some. exact E.
  - destruct W as (F & x & E & W). pose proof (mstore_Ret _ _ _ _ E) as (R & LX & X1 & X). destruct (mstore_ok m off v ltac:(lia)) as (m2 & E2 & LX2 & Y1 & Y).
    destruct (IHb _ _ _ (set_mem h m2) W) as (he' & W' & S').
    { exists m2. split; [reflexivity|]. cbn [mp_mem set_mem]. split; [congruence|]. intros a NG. destruct (Z.eq_dec a off) as [->|NE]; [congruence|]. rewrite X, Y by exact NE. apply D, NG. }
    exists he'. split; [|exact S']. split; [exact F|]. exists m2. split; [exact E2|exact W'].
  - destruct W as (x & E & W). destruct (H _ _ _ _ (set_mem h m) W) as (he' & W' & S'); [exists m; auto|]. exists he'. split; [|exact S']. exists x. split; [exact E|exact W'].
  - destruct W as (F & x & E & W). destruct (IHb _ _ _ (set_mem (set_ctrl h x) m) W) as (he' & W' & S'); [exists m; auto|]. exists he'. split; [|exact S']. split; [exact F|]. exists x. split; [exact E|exact W'].
  - destruct W as (x & E & W). destruct (H _ _ _ _ (set_mem h m) W) as (he' & W' & S'); [exists m; auto|]. exists he'. split; [|exact S']. exists x. split; [exact E|exact W'].
  - destruct W as (x & E & W). destruct (IHb _ _ _ (set_mem (set_free h x) m) W) as (he' & W' & S'); [exists m; auto|]. exists he'. split; [|exact S']. exists x. split; [exact E|exact W'].
  - destruct (H _ _ _ _ (set_mem h m) W) as (he' & W' & S'); [exists m; auto|]. exists he'. split; [exact W'|exact S'].
  - destruct (IHb _ _ _ (set_mem (setc h s) m) W) as (he' & W' & S'); [exists m; auto|]. exists he'. split; [exact W'|exact S'].
  - contradiction.
Qed.
(** the same code, disturbed and undisturbed, meets again if the bytes in G are made the same in both *)
Lemma ends_quiet b h he r : ends b h he r -> quiet h he.
Proof. intro W. apply wp_quiet in W. apply wp_ends in W as (h1 & r1 & _ & K & -> & ->). exact K. Qed.
Lemma meet b1 b2 h1 h2 he r h1' h2' : ends b1 h1 he r -> ends b2 h2 he r -> sim h1 h1' -> sim h2 h2' ->
  (forall a, G a -> znth a (mp_mem h1') = znth a (mp_mem h2')) -> (forall a, {G a} + {~ G a}) -> exists he', ends b1 h1' he' r /\ ends b2 h2' he' r.
Proof.
  intros W1 W2 S1 S2 EQ DEC. destruct (wp_sim _ _ _ _ _ W1 S1) as (x1 & X1 & m1 & -> & L1 & D1). destruct (wp_sim _ _ _ _ _ W2 S2) as (x2 & X2 & m2 & -> & L2 & D2).
  assert (m1 = m2) as <-; [|exists (set_mem he m1); auto].
  apply ends_quiet in X1 as (_ & _ & _ & K1 & _), X2 as (_ & _ & _ & K2 & _). cbn [mp_mem set_mem] in *. apply znth_ext; [congruence|]. intros a _. destruct (DEC a) as [Ga|Na]; [rewrite K1, K2 by exact Ga; apply EQ, Ga|rewrite D1, D2 by exact Na; reflexivity].
Qed.
End A.
End W.
