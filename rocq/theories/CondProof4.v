(** Every step preserves the invariant (continued): the steps that are recorded in the history. *)
From Verif Require Import CBase ThreadLib CondModel CondSpec CondProof CondProof2 CondProof3.

Lemma ret_inv : forall g0 s t, inv g0 s -> inv g0 (emit s (ERet t)).
Proof. intros g0 s t I. destruct I. constructor; auto. Qed.

Lemma nogrant_inv : forall g0 s t p e, inv g0 s -> nth_error (pcs s) t = Some p -> hl p = true -> crit (emit s e) t p -> notify e ->
  zlen (waiters (clog s)) <= pending (clog s) -> inv g0 (emit s e).
Proof.
  intros g0 s t p e I E H C N G.
  assert (G0 : grant (clog s) = 0) by (unfold grant; destruct (_ <? _) eqn:X; lia).
  pose proof (pending_le _ (i_legal _ _ I)) as PL.
  assert (W : waiters (e :: clog s) = waiters (clog s)) by (destruct e; cbn in N; try contradiction; reflexivity).
  assert (Gr : grants (e :: clog s) = grants (clog s)) by (destruct e; cbn in N; try contradiction; cbn; lia).
  assert (Si : forall u, since u (e :: clog s) = since u (clog s)) by (intros u; destruct e; cbn in N; try contradiction; cbn; lia).
  assert (Pe : pending (e :: clog s) = pending (clog s)).
  { destruct e; cbn in N; try contradiction; cbn; [destruct (_ <? _) eqn:X; lia | lia]. }
  assert (Le : legal (e :: clog s)) by (pose proof (i_legal _ _ I); destruct e; cbn in N; try contradiction; exact H0).
  constructor; cbn [pcs clog emit lck mtx waiting wake gen sem]; rewrite ?W, ?Gr, ?Pe; try exact Le; try apply I.
  - intros u q E'. destruct (Nat.eq_dec u t) as [->|Ne]; [replace q with p by congruence; exact C|].
    apply crit_free. exact (other_free _ _ _ _ _ _ I E H Ne E').
  - intros u q g E' L. rewrite Si. exact (i_g _ _ I _ _ _ E' L).
Qed.

Lemma grant_inv : forall g0 s t p p' e d, inv g0 s -> nth_error (pcs s) t = Some p -> hl p = true -> hl p' = true -> notify e ->
  reg p = false -> reg p' = false -> f199 p = 0 -> f199 p' = 0 -> ftok p = 0 -> ftok p' = 0 -> fd p = 0 -> fd p' = d -> fa p = 0 -> fa p' = 1 ->
  locg p' = None -> hm p' = false -> nm p' = false -> val p' -> crit (emit s e) t p' ->
  pending (clog s) < zlen (waiters (clog s)) -> pending (e :: clog s) = pending (clog s) + d -> inv g0 (set_pc (emit s e) t p').
Proof.
  intros g0 s t p p' e d I E H H' NT R R' S S' T T' D D' A A' G M M' V C P P'.
  assert (G1 : grant (clog s) = 1) by (unfold grant; destruct (_ <? _) eqn:X; lia).
  assert (W : waiters (e :: clog s) = waiters (clog s)) by (destruct e; cbn in NT; try contradiction; reflexivity).
  assert (Gr : grants (e :: clog s) = 1 + grants (clog s)) by (destruct e; cbn in NT; try contradiction; cbn; lia).
  assert (Si : forall u, since u (e :: clog s) = 1 + since u (clog s)) by (intros u; destruct e; cbn in NT; try contradiction; cbn; lia).
  assert (Le : legal (e :: clog s)) by (pose proof (i_legal _ _ I); destruct e; cbn in NT; try contradiction; exact H0).
  constructor; proj; rewrite ?W, ?Gr, ?P'; try exact Le.
  - rewrite lset_zlen. apply I.
  - pw t E; [replace (hl p') with (hl p) by congruence; apply (i_lck _ _ I _ _ E) | apply (i_lck _ _ I _ _ E')].
  - intros u L. rewrite (lset_nth _ _ _ _ _ E). destruct (Nat.eq_dec u t) as [->|Ne]; [eauto | apply (i_lck2 _ _ I _ L)].
  - pw t E; [exact V | apply (i_val _ _ I _ _ E')].
  - pw t E; [exact C | apply crit_free; exact (other_free _ _ _ _ _ _ I E H N E')].
  - pw t E; [split; congruence | apply (i_mtx _ _ I _ _ E')].
  - pw t E; [replace (reg p') with (reg p) by congruence; apply (i_in _ _ I _ _ E) | apply (i_in _ _ I _ _ E')].
  - intros u L. rewrite (lset_nth _ _ _ _ _ E). destruct (Nat.eq_dec u t) as [->|Ne]; [eauto | apply (i_in2 _ _ I _ L)].
  - intros u q g E' L. rewrite Si. rewrite (lset_nth _ _ _ _ _ E) in E'. destruct (Nat.eq_dec u t) as [->|Ne]; [injection E' as <-; congruence|].
    rewrite (i_g _ _ I _ _ _ E' L). f_equal. lia.
  - rewrite (lsum_lset _ _ _ _ _ E), (i_gen _ _ I). f_equal. lia.
  - rewrite (lsum_lset _ _ _ _ _ E), (i_wlen _ _ I). unfold fr. rewrite R, R'. lia.
  - rewrite !(lsum_lset _ _ _ _ _ E), (i_wait _ _ I). unfold fr. rewrite R, R'. lia.
  - rewrite (lsum_lset _ _ _ _ _ E), (i_tok _ _ I). lia.
  - apply I.
  - rewrite (lsum_lset _ _ _ _ _ E), (i_pend _ _ I). lia.
Qed.

Lemma register_inv : forall g0 s t, inv g0 s -> nth_error (pcs s) t = Some W187 ->
  inv g0 (set_pc (emit (set_waiting s (u64 (waiting s + 1))) (EWait t)) t W188).
Proof.
  intros g0 s t I E. pose proof (inv_bounds _ _ I) as B.
  pose proof (i_len _ _ I) as Ln. pose proof (b_wait _ B). pose proof (b_wake _ B).
  assert (NI : ~ In t (waiters (clog s))) by (rewrite (i_in _ _ I _ _ E); cbn; congruence).
  assert (Hu : u64 (waiting s + 1) = waiting s + 1) by (apply u64_small; unfold two31, two64 in *; lia). rewrite Hu.
  constructor; proj; cbn [waiters pending grants].
  - rewrite lset_zlen. exact Ln.
  - pw t E; [apply (i_lck _ _ I _ _ E) | apply (i_lck _ _ I _ _ E')].
  - intros u L. rewrite (lset_nth _ _ _ _ _ E). destruct (Nat.eq_dec u t) as [->|Ne]; [eauto | apply (i_lck2 _ _ I _ L)].
  - pw t E; [exact Logic.I | apply (i_val _ _ I _ _ E')].
  - pw t E; [cbn; destruct (Nat.eq_dec t t); congruence | apply crit_free; exact (other_free _ _ _ _ _ _ I E eq_refl N E')].
  - pw t E; [split; [intros _; apply (i_mtx _ _ I _ _ E); reflexivity | discriminate] | apply (i_mtx _ _ I _ _ E')].
  - pw t E; [split; [reflexivity | left; reflexivity]|]. cbn. rewrite <- (i_in _ _ I _ _ E'). split; [intros [X|X]; [congruence | exact X] | tauto].
  - intros u L. rewrite (lset_nth _ _ _ _ _ E). destruct (Nat.eq_dec u t) as [->|Ne]; [eauto|]. apply (i_in2 _ _ I).
    destruct L as [X|X]; [congruence | exact X].
  - intros u q g E' L. rewrite (lset_nth _ _ _ _ _ E) in E'. destruct (Nat.eq_dec u t) as [->|Ne]; [injection E' as <-; discriminate|].
    cbn [since]. destruct (Nat.eq_dec u t); [congruence|]. apply (i_g _ _ I _ _ _ E' L).
  - rewrite (lsum_lset _ _ _ _ _ E), (i_gen _ _ I). cbn. f_equal. lia.
  - rewrite (lsum_lset _ _ _ _ _ E), zlen_cons, (i_wlen _ _ I). cbn. lia.
  - rewrite !(lsum_lset _ _ _ _ _ E), (i_wait _ _ I). cbn. lia.
  - rewrite (lsum_lset _ _ _ _ _ E), (i_tok _ _ I). cbn. lia.
  - apply I.
  - rewrite (lsum_lset _ _ _ _ _ E), (i_pend _ _ I). cbn. lia.
  - cbn. split; [apply I | exact NI].
Qed.

Lemma woken_inv : forall g0 s t g, inv g0 s -> nth_error (pcs s) t = Some (W198 g) ->
  inv g0 (set_pc (emit (set_wake s (u64 (wake s - 1))) (EWake t)) t (W199 g)).
Proof.
  intros g0 s t g I E. pose proof (inv_bounds _ _ I) as B.
  pose proof (i_len _ _ I) as Ln. pose proof (b_wait _ B). pose proof (b_wake _ B). pose proof (tok_member _ _ _ _ I E) as TM. cbn in TM.
  pose proof (i_sem _ _ I) as SM.
  assert (NI : In t (waiters (clog s))) by (rewrite (i_in _ _ I _ _ E); reflexivity).
  assert (Hu : u64 (wake s - 1) = wake s - 1) by (apply u64_small; unfold two31, two64 in *; lia). rewrite Hu.
  pose proof (waiters_nodup _ (i_legal _ _ I)) as ND.
  constructor; proj; cbn [waiters pending grants].
  - rewrite lset_zlen. exact Ln.
  - pw t E; [apply (i_lck _ _ I _ _ E) | apply (i_lck _ _ I _ _ E')].
  - intros u L. rewrite (lset_nth _ _ _ _ _ E). destruct (Nat.eq_dec u t) as [->|Ne]; [eauto | apply (i_lck2 _ _ I _ L)].
  - pw t E; [exact Logic.I | apply (i_val _ _ I _ _ E')].
  - pw t E; [exact Logic.I | apply crit_free; exact (other_free _ _ _ _ _ _ I E eq_refl N E')].
  - pw t E; [split; [discriminate | intros _; apply (i_mtx _ _ I _ _ E); reflexivity] | apply (i_mtx _ _ I _ _ E')].
  - pw t E; [split; [intros X; apply in_remove in X; tauto | discriminate]|]. cbn. rewrite <- (i_in _ _ I _ _ E').
    split; [intros X; apply in_remove in X; tauto | intros X; apply in_in_remove; auto].
  - intros u L. rewrite (lset_nth _ _ _ _ _ E). destruct (Nat.eq_dec u t) as [->|Ne]; [eauto|]. apply (i_in2 _ _ I).
    apply in_remove in L. tauto.
  - intros u q g' E' L. rewrite (lset_nth _ _ _ _ _ E) in E'. destruct (Nat.eq_dec u t) as [->|Ne]; [injection E' as <-; discriminate|].
    cbn [since]. apply (i_g _ _ I _ _ _ E' L).
  - rewrite (lsum_lset _ _ _ _ _ E), (i_gen _ _ I). cbn. f_equal. lia.
  - rewrite (lsum_lset _ _ _ _ _ E), remove_len, (i_wlen _ _ I) by auto. cbn. lia.
  - rewrite !(lsum_lset _ _ _ _ _ E), (i_wait _ _ I). cbn. lia.
  - rewrite (lsum_lset _ _ _ _ _ E), (i_tok _ _ I). cbn. lia.
  - apply I.
  - rewrite (lsum_lset _ _ _ _ _ E), (i_pend _ _ I). cbn. lia.
  - cbn. split; [apply I|]. split; [exact NI|]. split; [|apply (i_crit _ _ I _ _ E)].
    rewrite (i_pend _ _ I), (lsum_locked _ _ fd t _ I fd_hl E eq_refl). cbn. lia.
Qed.

Lemma s32_small x : - two31 <= x < two31 -> s32 x = x.
Proof. intro H; unfold s32, two31, two32 in *; rewrite Z.mod_small by lia; lia. Qed.
Ltac bounds_of I := pose proof (inv_bounds _ _ I) as B; pose proof (i_len _ _ I) as Ln; pose proof (b_wait _ B) as Bw; pose proof (b_wake _ B) as Bk;
  pose proof (i_sem _ _ I) as Bs.
Ltac fr_ I E := refine (frame_inv _ _ _ _ _ _ I E _); constructor; [proj; reflexivity|..]; proj; cbn [hl val hm nm reg locg fa f199 ftok fd inside_wait andb negb];
  try reflexivity; try tauto; try (left; split; reflexivity); try (left; split; [reflexivity | split; auto]); try (left; split; [reflexivity | split; auto]); try exact Logic.I;
  try (intros ? X; left; exact X); try (intros ? X; discriminate X); try (rewrite ?(i_gen _ _ I); f_equal; lia); try lia.

Lemma exec_inv : forall g0 s t s', inv g0 s -> exec t s = Some s' -> inv g0 s'.
Proof.
  intros g0 s t s' I X. unfold exec in X. destruct (nth_error (pcs s) t) as [p|] eqn:E; [|discriminate].
  bounds_of I. pose proof (i_lck _ _ I _ _ E) as LK. pose proof (i_val _ _ I _ _ E) as VL. pose proof (i_crit _ _ I _ _ E) as CR.
  pose proof (i_mtx _ _ I _ _ E) as MT. pose proof (tok_member _ _ _ _ I E) as TM.
  destruct p; cbn [hl val crit hm nm inside_wait andb negb ftok] in *; try discriminate;
    try (unfold lock_c in X; destruct (lck s) eqn:L; [discriminate|]).
  all: try (injection X as <-; fr_ I E; fail).
  - injection X as <-. apply register_inv; auto.
  - injection X as <-. fr_ I E. intros g Q. right. injection Q as <-. rewrite (i_gen _ _ I), CR.
    rewrite (lsum_locked _ _ fa t _ I fa_hl E eq_refl). reflexivity.
  - destruct (0 <? sem s) eqn:P; [|discriminate]. injection X as <-. fr_ I E.
  - destruct (wake s =? 0) eqn:P; [lia|]. injection X as <-. fr_ I E.
  - destruct (gen s =? g) eqn:P; injection X as <-; fr_ I E.
    assert (J : In t (waiters (clog s))) by (apply (i_in _ _ I _ _ E); reflexivity).
    apply signalled_since; [apply I | exact J|]. change (0 < since t (clog s)). pose proof (since_bounds t (clog s)) as SB.
    destruct (Z.eq_dec (since t (clog s)) 0) as [Z0|Z0]; [exfalso | lia].
    pose proof (i_gen _ _ I) as G1. rewrite (lsum_locked _ _ fa t _ I fa_hl E eq_refl) in G1. cbn [fa] in G1.
    pose proof (i_g _ _ I _ _ _ E eq_refl) as G2. rewrite Z0 in G2. lia.
  - injection X as <-. apply woken_inv; auto.
  - injection X as <-. assert (1 <= waiting s).
    { pose proof (lsum_member f199 _ t _ (f_nonneg g0 s f199 I ltac:(auto)) E) as Q. cbn in Q.
      pose proof (lsum_nonneg fr (pcs s) (f_nonneg g0 s fr I ltac:(auto))). pose proof (i_wait _ _ I). lia. }
    rewrite u64_small by (unfold two31, two64 in *; lia). fr_ I E.
  - subst wake. cbn [Z.eqb] in X. unfold release in X. destruct (sem s + 1 <=? sem_max) eqn:P; [|unfold sem_max, two31 in *; lia].
    injection X as <-. fr_ I E.
  - destruct (mtx s) eqn:M; [discriminate|]. injection X as <-. pose proof (ret_inv _ _ t I) as I2.
    change (set_pc (emit (set_mtx s (Some t)) (ERet t)) t Idle) with (set_pc (set_mtx (emit s (ERet t)) (Some t)) t Idle).
    refine (frame_inv _ _ _ _ _ _ I2 E _). constructor; [proj; reflexivity|..]; proj; cbn [hl val hm nm reg locg fa f199 ftok fd inside_wait andb negb];
      try reflexivity; try tauto; try lia; try (intros; discriminate); try exact Logic.I;
      try (left; split; reflexivity); try (left; split; [reflexivity | split; auto]).
    cbn [grants]. rewrite (i_gen _ _ I). f_equal. lia.
  - injection X as <-. pose proof (lsum_locked _ _ fd t _ I fd_hl E eq_refl) as D. pose proof (lsum_locked _ _ f199 t _ I s199_hl E eq_refl) as D2.
    cbn in D, D2. pose proof (i_pend _ _ I) as P. pose proof (i_wait _ _ I) as W. pose proof (i_wlen _ _ I) as WL.
    destruct (wake s <? waiting s) eqn:T.
    + eapply (grant_inv _ _ _ _ _ _ 1 I E); try reflexivity; try exact Logic.I; try (cbn; lia); try lia.
      cbn [pending]. destruct (pending (clog s) <? zlen (waiters (clog s))) eqn:T2; [reflexivity|]. exfalso. apply Z.ltb_lt in T. apply Z.ltb_ge in T2. lia.
    + assert (I2 : inv g0 (emit s (ESignal t))) by (eapply nogrant_inv; eauto; try exact Logic.I; apply Z.ltb_ge in T; lia).
      refine (frame_inv _ _ _ _ _ _ I2 E _). constructor; [proj; reflexivity|..]; proj; cbn [hl val hm nm reg locg fa f199 ftok fd inside_wait andb negb];
        try reflexivity; try tauto; try lia; try (intros; discriminate); try exact Logic.I;
        try (left; split; reflexivity); try (left; split; [reflexivity | split; auto]).
      pose proof (i_gen _ _ I2) as GG. proj. rewrite GG. f_equal. lia.
  - injection X as <-. rewrite (u64_small (wake s + 1)) by (unfold two31, two64 in *; lia). fr_ I E.
  - injection X as <-. fr_ I E. rewrite (i_gen _ _ I), u64_u64. f_equal. lia.
  - injection X as <-. destruct (wake =? 0) eqn:P.
    + fr_ I E.
    + unfold release. destruct (sem s + 1 <=? sem_max) eqn:Q; [|unfold sem_max, two31 in *; lia]. fr_ I E.
  - injection X as <-. pose proof (lsum_locked _ _ fd t _ I fd_hl E eq_refl) as D. pose proof (lsum_locked _ _ f199 t _ I s199_hl E eq_refl) as D2.
    cbn in D, D2. pose proof (i_pend _ _ I) as P. pose proof (i_wait _ _ I) as W. pose proof (i_wlen _ _ I) as WL.
    destruct (wake s <? waiting s) eqn:T.
    + rewrite (u64_small (waiting s - wake s)) by (unfold two31, two64 in *; lia).
      eapply (grant_inv _ _ _ _ _ _ (waiting s - wake s) I E); try reflexivity; try exact Logic.I; try (cbn; lia); try lia.
    + assert (I2 : inv g0 (emit s (EBcast t))) by (eapply nogrant_inv; eauto; try exact Logic.I; apply Z.ltb_ge in T; lia).
      refine (frame_inv _ _ _ _ _ _ I2 E _). constructor; [proj; reflexivity|..]; proj; cbn [hl val hm nm reg locg fa f199 ftok fd inside_wait andb negb];
        try reflexivity; try tauto; try lia; try (intros; discriminate); try exact Logic.I;
        try (left; split; reflexivity); try (left; split; [reflexivity | split; auto]).
      pose proof (i_gen _ _ I2) as GG. proj. rewrite GG. f_equal. lia.
  - injection X as <-. fr_ I E. rewrite (i_gen _ _ I), u64_u64. f_equal. lia.
  - injection X as <-. destruct (wake =? 0) eqn:P.
    + fr_ I E.
    + rewrite s32_small by (unfold two31 in *; lia).
      unfold release. destruct (sem s + wake <=? sem_max) eqn:Q; [|unfold sem_max, two31 in *; lia]. fr_ I E.
Qed.
