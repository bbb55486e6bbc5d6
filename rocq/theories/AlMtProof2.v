(** Proofs for C75, part 2: the steps *)
From Verif Require Import CBase CStr SeqLib AllocModel AllocProof AlMtModel AlMtSpec AlMtProof.
Lemma g0_none s g : inv s g -> g 0 = None.
Proof. intro I. pose proof (i_blk _ _ I 0) as B. destruct (g 0) as [[[w n] x]|]; [|reflexivity]. destruct B as (B & _). lia. Qed.
Lemma gset0 s g : inv s g -> forall a, gset g 0 None a = g a.
Proof. intros I a. unfold gset. destruct (Z.eqb_spec a 0) as [->|]; [symmetry; eapply g0_none; eassumption|reflexivity]. Qed.
Lemma pc_ok_ext g g' le tm hd t x : (forall a, g' a = g a) -> pc_ok g le tm hd t x -> pc_ok g' le tm hd t x.
Proof.
  intro E. assert (KK : forall n k, kok g le t n k -> kok g' le t n k) by (intros n [[p cur]|]; cbn; rewrite ?E; auto).
  assert (GG : forall q, gok g t q -> gok g' t q) by (intros [|[p n] [|? ?]]; cbn; rewrite ?E; auto).
  assert (GP : forall p q, gokp g t p q -> gokp g' t p q) by (intros p q (A & B); split; auto).
  assert (MM : forall p e, mine g le t p e -> mine g' le t p e) by (intros p e (n & H); exists n; rewrite E; exact H).
  assert (EE : forall pend rest reps l, ecore g tm hd pend rest reps l -> ecore g' tm hd pend rest reps l) by (intros pend rest reps l (A & B); split; [intros a w n e; rewrite E; apply A|exact B]).
  assert (LL : forall p n e, looked g p n e -> looked g' p n e) by (intros p n e (w & y & H); exists w, y; rewrite E; exact H).
  destruct x; cbn [pc_ok]; rewrite ?E; intro H; try tauto; try (destruct H as (A & B); split; auto; fail).
  - destruct H as (A & B & C). auto.
  - destruct H as ((x & A) & B). split; eauto.
  - destruct H as (A & x & B). split; eauto.
  - intros a w n e. rewrite E. apply H.
  - destruct H as (p & n & A & B & C). exists p, n. auto.
  - destruct H as (p & n & A & B & C). exists p, n. auto.
  - destruct H as (p & n & A & B & C). exists p, n. auto.
  - auto.
Qed.

(** only thread t's place (and the lock, what is lent, and the list of finished checks) changes *)
Lemma plain s g t x s' : inv s g -> tmap s' = tmap s -> recs s' = recs s -> heap s' = heap s -> held s' = held s ->
  (forall u y, u <> t -> List.In (u, y) (lent s) -> List.In (u, y) (lent s')) ->
  (forall u, pcs s' u = if Nat.eqb u t then x else pcs s u) ->
  pc_ok g (lent s') (tmap s) (held s) t x ->
  (forall a n y, g a = Some (Some t, n, y) -> List.In a (bases (pcs s t)) -> List.In a (bases x)) ->
  ((lock s' = lock s /\ in_check x = in_check (pcs s t)) \/ (lock s = None /\ lock s' = Some t /\ in_check x = true) \/ (lock s = Some t /\ lock s' = None /\ in_check x = false)) ->
  (allocating x = true -> allocating (pcs s t) = true \/ forall u, u <> t -> checking (pcs s u) = false) ->
  (checking x = true -> checking (pcs s t) = true \/ forall u, u <> t -> allocating (pcs s u) = false) ->
  (checking x = true -> allocating x = false) -> Forall report_ok (done s') -> exists g', inv s' g'.
Proof.
  intros I T R H HD LE P PK BA LO AL CH BO DO. exists (gset g 0 None). pose proof (g0_none _ _ I) as G0. apply move_inv with (s := s) (t := t) (x := x); [exact I|]. split; try rewrite G0; try rewrite T; try rewrite R; try rewrite H; try rewrite HD; auto; try discriminate.
  - pose proof (i_blk _ _ I 0) as B. rewrite G0 in B. cbn in *. rewrite H, T. exact B.
  - intros e E. left. split; [exact E|discriminate].
  - intros a A _ _ (n & y & E). eauto.
  - eapply pc_ok_ext; [apply (gset0 _ _ I)|exact PK].
  - intros p n. destruct (Z.eqb_spec (p - 8) 0) as [E|E]; [|tauto]. split; [|intros (e & X); discriminate]. intro A. apply (i_held _ _ I) in A. rewrite E, G0 in A. destruct A as (e & A). discriminate.
  - apply (i_nd _ _ I).
  - apply (i_map _ _ I).
  - intros. apply incl_refl.
Qed.

(** a block of the thread itself changes its stage *)
Definition mine_or_none (t : nat) (c : claim) : Prop := c = None \/ exists n y, c = Some (Some t, n, y).
Lemma stage_move s g t a0 v x s' : inv s g -> held s' = held s -> lent s' = lent s -> lock s' = lock s -> done s' = done s ->
  (forall u, pcs s' u = if Nat.eqb u t then x else pcs s u) ->
  mine_or_none t (g a0) -> mine_or_none t v -> (v <> None -> List.In a0 (bases x)) ->
  (forall a, a <> a0 -> heap s' a = heap s a) -> (forall a, a <> a0 -> lookup (tmap s') (a + 8) = lookup (tmap s) (a + 8)) ->
  (forall e, recs s' e = recs s e \/ crec (g a0) = Some e \/ recs s e = None) -> blk_ok s' a0 v ->
  (forall e, crec v = Some e -> crec (g a0) = Some e \/ recs s e = None) ->
  (forall e, recs s' e <> None -> (recs s e <> None /\ crec (g a0) <> Some e) \/ crec v = Some e) ->
  (forall a n y, g a = Some (Some t, n, y) -> a <> a0 -> List.In a (bases (pcs s t)) -> List.In a (bases x)) ->
  pc_ok (gset g a0 v) (lent s) (tmap s') (held s) t x ->
  NoDup (map fst (tmap s')) -> (tmap s' = tmap s \/ lock s = None) ->
  checking x = false -> checking (pcs s t) = false -> (allocating x = true -> allocating (pcs s t) = true) ->
  (allocating (pcs s t) = true \/ (forall w n e, v = Some (w, n, SFull e) -> exists w', g a0 = Some (w', n, SFull e))) ->
  (allocating (pcs s t) = true \/ lock s = None \/ forall w n e y, g a0 = Some (w, n, y) -> (y = SFull e \/ y = SMark e) -> exists w' y', v = Some (w', n, y') /\ (y' = SFull e \/ y' = SMark e)) ->
  inv s' (gset g a0 v).
Proof.
  intros I HD LE LO DO P MN MV VB H1 H2 H3 H4 H5 H6 BA PK ND TM CX CP AL F1 F2.
  assert (CU : forall u, checking (pcs s u) = true -> allocating (pcs s t) = false) by (intros u C; exact (i_excl _ _ I u t C)).
  assert (NI : in_check (pcs s t) = false) by (destruct (in_check (pcs s t)) eqn:E; [apply in_check_checking in E; congruence|reflexivity]).
  assert (NX : in_check x = false) by (destruct (in_check x) eqn:E; [apply in_check_checking in E; congruence|reflexivity]).
  apply move_inv with (s := s) (t := t) (x := x); [exact I|]. split; rewrite ?HD, ?LE, ?LO, ?DO; auto.
  - intros u n y E. destruct MN as [Q|(n' & y' & Q)]; congruence.
  - intros u n y E. destruct MV as [Q|(n' & y' & Q)]; [congruence|]. split; [congruence|]. apply VB. congruence.
  - intros n y E. destruct MV as [Q|(n' & y' & Q)]; congruence.
  - intros a A N _ (n & y & E). eauto.
  - intros p n. destruct (Z.eqb_spec (p - 8) a0) as [E|E]; [|tauto]. split.
    + intro A. apply (i_held _ _ I) in A. rewrite E in A. destruct A as (e & A). destruct MN as [Q|(n' & y' & Q)]; congruence.
    + intros (e & A). destruct MV as [Q|(n' & y' & Q)]; congruence.
  - apply (i_nd _ _ I).
  - left. split; [reflexivity|congruence].
  - intros u NU L. destruct TM as [TM|TM]; [exact TM|congruence].
  - congruence.
  - congruence.
  - intros u NU C. specialize (CU u C). destruct F1 as [F1|F1]; [congruence|exact F1].
  - intros. apply incl_refl.
  - intros u NU L. apply (i_lock _ _ I) in L as C. pose proof (CU u (in_check_checking _ C)) as X. destruct F2 as [F2|[F2|F2]]; [congruence|congruence|exact F2].
  - apply (i_done _ _ I).
Qed.

(** ** canaries *)
Lemma canary_len : zlen canary = 8. Proof. reflexivity. Qed.
Lemma sealed_len b n : sealed b n -> zlen b = n + 16.
Proof. intros (u & -> & L). rewrite !zlen_app, canary_len. lia. Qed.
Lemma sealed_check b n : 0 <= n -> sealed b n -> check_canary 8 b n 0 = Ret tt.
Proof. intros N S. destruct (check_ok b n N (sealed_len _ _ S)) as [(_ & E)|(X & _)]; [exact E|]. destruct (X S). Qed.
Lemma sealed_write b n off bytes : sealed b n -> 0 <= off -> off + zlen bytes <= n -> exists b', mwrite b (8 + off) bytes = Ret b' /\ sealed b' n.
Proof.
  intros (u & -> & Lu) Ho Hl. pose proof (zlen_nonneg bytes). rewrite mwrite_ok by (rewrite ?zlen_app; change (zlen canary) with 8; lia). eexists. split; [reflexivity|]. exists (zwrite off bytes u). split; [|rewrite zlen_zwrite; lia].
  unfold zwrite. rewrite ztake_app, (ztake_all (8 + off) canary) by (change (zlen canary) with 8; lia).
  change (zlen canary) with 8. replace (8 + off - 8) with off by lia.
  rewrite ztake_app_l by lia. rewrite <- !app_assoc. f_equal. f_equal. f_equal.
  rewrite zdrop_app, (zdrop_all _ canary) by (change (zlen canary) with 8; lia). cbn [app].
  change (zlen canary) with 8. replace (8 + off + zlen bytes - 8) with (off + zlen bytes) by lia.
  apply zdrop_app_l. lia.
Qed.
Lemma seal_front b n : 0 <= n -> zlen b = n + 16 -> exists b', mwrite b 0 canary = Ret b' /\ zlen b' = n + 16 /\ ztake 8 b' = canary.
Proof.
  intros N L. rewrite mwrite_ok by (rewrite ?canary_len; lia). eexists. split; [reflexivity|]. split; [rewrite zlen_zwrite; rewrite ?canary_len; lia|].
  unfold zwrite. change (ztake 0 b) with (@nil Z). cbn [app]. rewrite <- canary_len. apply ztake_app_len.
Qed.
Lemma seal_back b n : 0 <= n -> zlen b = n + 16 -> ztake 8 b = canary -> exists b', mwrite b (8 + n) canary = Ret b' /\ sealed b' n.
Proof.
  intros N L F. rewrite mwrite_ok by (rewrite ?canary_len; lia). eexists. split; [reflexivity|]. exists (zsub 8 n b). split.
  - unfold zwrite. rewrite canary_len. rewrite (zdrop_all (8 + n + 8)) by lia. rewrite app_nil_r. rewrite app_assoc. f_equal. rewrite <- F. change (ztake 8 b) with (zsub 0 8 b). change (zsub 8 n b) with (zsub (0 + 8) n b). rewrite <- (zsub_split 0 8 n b) by lia. reflexivity.
  - apply zlen_zsub; lia.
Qed.
