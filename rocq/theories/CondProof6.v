(** Rest states and progress. *)
From Verif Require Import CBase ThreadLib CondModel CondSpec CondProof CondProof2 CondProof3 CondProof4 CondProof5.

(** nobody can move, except waiters that may take a unit of the semaphore *)
Definition settled (s : cst) : Prop := forall t p s', nth_error (pcs s) t = Some p -> exec t s = Some s' -> exists g, p = W192 g.
Definition resting (p : pc) : Prop := match p with Idle | W192 _ | W212 => True | _ => False end.

Lemma settled_free : forall g0 s, inv g0 s -> settled s -> lck s = None.
Proof.
  intros g0 s I S. destruct (lck s) as [t|] eqn:L; [|reflexivity]. exfalso.
  destruct (i_lck2 _ _ I _ L) as (p & E). pose proof (i_lck _ _ I _ _ E) as (_ & H). specialize (H L).
  specialize (S t p). unfold exec in S. rewrite E in S.
  destruct p; cbn in H; try discriminate; edestruct S as (g' & G); try reflexivity; discriminate G.
Qed.
Lemma settled_pcs : forall g0 s t p, inv g0 s -> settled s -> nth_error (pcs s) t = Some p -> resting p.
Proof.
  intros g0 s t p I S E. pose proof (settled_free _ _ I S) as L. specialize (S t p). unfold exec, lock_c in S. rewrite E, L in S.
  destruct p; cbn; try exact Logic.I; edestruct S as (g' & G); try reflexivity; discriminate G.
Qed.
Definition calm (s : cst) : Prop := lck s = None /\ forall t p, nth_error (pcs s) t = Some p -> resting p.
Lemma settled_calm : forall g0 s, inv g0 s -> settled s -> calm s.
Proof. intros g0 s I S. split; [eapply settled_free; eauto | intros; eapply settled_pcs; eauto]. Qed.
Lemma settled_tok : forall g0 s, inv g0 s -> calm s -> wake s = sem s /\ pending (clog s) = wake s.
Proof.
  intros g0 s I S. pose proof (i_tok _ _ I) as T. rewrite lsum_zero in T.
  2: { intros t p E. apply (proj2 S) in E. destruct p; cbn in *; try contradiction; reflexivity. }
  pose proof (i_pend _ _ I) as P. rewrite lsum_zero in P.
  2: { intros t p E. apply (proj2 S) in E. destruct p; cbn in *; try contradiction; reflexivity. }
  lia.
Qed.
Lemma settled_waiter : forall g0 s t, inv g0 s -> calm s -> In t (waiters (clog s)) -> exists g, nth_error (pcs s) t = Some (W192 g).
Proof.
  intros g0 s t I S J. destruct (i_in2 _ _ I _ J) as (p & E). pose proof (proj2 S _ _ E) as R.
  apply (i_in _ _ I _ _ E) in J. destruct p; cbn in *; try contradiction; try discriminate. eauto.
Qed.
Lemma rest_settled : forall s, at_rest s -> settled s.
Proof. intros s A t p s' E X. rewrite (A t) in X. discriminate. Qed.

Lemma rest_pending : forall g0 s, inv g0 s -> at_rest s -> pending (clog s) = 0.
Proof.
  intros g0 s I A. pose proof (settled_calm _ _ I (rest_settled _ A)) as S. destruct (settled_tok _ _ I S) as (T & P).
  pose proof (pending_le _ (i_legal _ _ I)) as B.
  destruct (waiters (clog s)) as [|t r] eqn:W; [change (zlen (@nil nat)) with 0 in B; lia|].
  destruct (settled_waiter _ _ t I S) as (g & E); [rewrite W; left; reflexivity|].
  specialize (A t). unfold exec in A. rewrite E in A. destruct (0 <? sem s) eqn:Z; [discriminate|]. lia.
Qed.

(** the number of steps until a thread rests, if it takes no unit of the semaphore *)
Definition rank (p : pc) : Z :=
  match p with
  | Idle | W192 _ => 0
  | W190 _ | W205 _ _ | W212 | S227 _ | B245 _ => 1
  | W189 _ | W204 _ _ | W211 | S226 _ | B244 _ => 2
  | W188 | W199 _ | S224 | B242 _ => 3
  | W187 | W198 _ | S223 | B241 _ => 4
  | W186 | W196 _ | S220 | B238 => 5
  | W194 _ | S219 | B237 => 6
  | W193 _ => 7
  end.
Lemma rank_pos : forall p, 0 <= rank p. Proof. destruct p; cbn; lia. Qed.

(** the notifications a thread is still going to log *)
Definition fn (p : pc) : Z := match p with S219 | S220 | B237 | B238 => 1 | _ => 0 end.

Lemma exec_rank : forall s t p s', nth_error (pcs s) t = Some p -> exec t s = Some s' -> (forall g, p <> W192 g) ->
  lsum rank (pcs s') < lsum rank (pcs s).
Proof.
  intros s t p s' E X N. unfold exec, lock_c in X. rewrite E in X.
  assert (K : forall s'' p', pcs s'' = lset t p' (pcs s) -> rank p' < rank p -> lsum rank (pcs s'') < lsum rank (pcs s)).
  { intros s'' p' Q R. rewrite Q, (lsum_lset _ _ _ _ _ E). lia. }
  assert (K2 : forall x n p', lset t p' (pcs (release x n)) = lset t p' (pcs x)) by (intros; unfold release; destruct (_ <=? _); reflexivity).
  destruct p; try discriminate; try (destruct (lck s); [discriminate|]); try (destruct (mtx s); [discriminate|]);
    try (injection X as <-; cbn [rank] in K; eapply K; [reflexivity | cbn; lia]).
  - exfalso. eapply N. reflexivity.
  - injection X as <-. eapply K; [reflexivity|]. destruct (wake s =? 0); cbn; lia.
  - injection X as <-. eapply K; [reflexivity|]. destruct (gen s =? g); cbn; lia.
  - injection X as <-. eapply K; [cbn [pcs set_pc]; destruct (wake =? 0); [reflexivity | apply K2]|]. cbn; lia.
  - injection X as <-. eapply K; [reflexivity|]. destruct (wake s <? waiting s); cbn; lia.
  - injection X as <-. eapply K; [cbn [pcs set_pc]; destruct (wake =? 0); [reflexivity | apply K2]|]. cbn; lia.
  - injection X as <-. eapply K; [reflexivity|]. destruct (wake s <? waiting s); cbn; lia.
  - injection X as <-. eapply K; [cbn [pcs set_pc]; destruct (wake =? 0); [reflexivity | apply K2]|]. cbn; lia.
Qed.

Lemma exec_notifies : forall s t s', exec t s = Some s' -> notifies (clog s') + lsum fn (pcs s') <= notifies (clog s) + lsum fn (pcs s).
Proof.
  intros s t s' X. unfold exec, lock_c in X. destruct (nth_error (pcs s) t) as [p|] eqn:E; [|discriminate].
  assert (K : forall s'' p', pcs s'' = lset t p' (pcs s) -> notifies (clog s'') - notifies (clog s) <= fn p - fn p' ->
    notifies (clog s'') + lsum fn (pcs s'') <= notifies (clog s) + lsum fn (pcs s)).
  { intros s'' p' Q R. rewrite Q, (lsum_lset _ _ _ _ _ E). lia. }
  assert (K2 : forall x n p', lset t p' (pcs (release x n)) = lset t p' (pcs x)) by (intros; unfold release; destruct (_ <=? _); reflexivity).
  assert (K3 : forall x n, clog (release x n) = clog x) by (intros; unfold release; destruct (_ <=? _); reflexivity).
  destruct p; try discriminate; try (destruct (lck s); [discriminate|]); try (destruct (mtx s); [discriminate|]);
    try (injection X as <-; cbn [fn] in K; eapply K; [reflexivity | cbn; lia]).
  - destruct (0 <? sem s); [|discriminate]. injection X as <-. eapply K; [reflexivity | cbn; lia].
  - injection X as <-. eapply K; [reflexivity|]. destruct (wake s =? 0); cbn; lia.
  - injection X as <-. eapply K; [reflexivity|]. destruct (gen s =? g); cbn; lia.
  - injection X as <-. eapply K; [cbn [pcs set_pc]; destruct (wake =? 0); [reflexivity | apply K2]|]. cbn [clog set_pc]. destruct (wake =? 0); rewrite ?K3; cbn; lia.
  - injection X as <-. eapply K; [reflexivity|]. destruct (wake s <? waiting s); cbn; lia.
  - injection X as <-. eapply K; [cbn [pcs set_pc]; destruct (wake =? 0); [reflexivity | apply K2]|]. cbn [clog set_pc]. destruct (wake =? 0); rewrite ?K3; cbn; lia.
  - injection X as <-. eapply K; [reflexivity|]. destruct (wake s <? waiting s); cbn; lia.
  - injection X as <-. eapply K; [cbn [pcs set_pc]; destruct (wake =? 0); [reflexivity | apply K2]|]. cbn [clog set_pc]. destruct (wake =? 0); rewrite ?K3; cbn; lia.
Qed.

(** a run that only continues calls already made *)
Definition internal (a : act) : Prop := match a with AStep _ => True | _ => False end.
Lemma run_app : forall l l' s s' s'', run l s = Some s' -> run l' s' = Some s'' -> run (l ++ l') s = Some s''.
Proof.
  induction l as [|a l IH]; intros l' s s' s'' A B; cbn in *; [congruence|]. destruct (do_act a s); [eapply IH; eauto | discriminate].
Qed.

Definition is192 (p : pc) : bool := match p with W192 _ => true | _ => false end.
Definition can_move (s : cst) (t : nat) : bool :=
  match nth_error (pcs s) t, exec t s with Some p, Some _ => negb (is192 p) | _, _ => false end.
Lemma settled_dec : forall s, settled s \/ exists t p s', nth_error (pcs s) t = Some p /\ (forall g, p <> W192 g) /\ exec t s = Some s'.
Proof.
  intros s. destruct (existsb (can_move s) (seq 0 (length (pcs s)))) eqn:X.
  - right. apply existsb_exists in X. destruct X as (t & _ & M). unfold can_move in M.
    destruct (nth_error (pcs s) t) as [p|] eqn:E; [|discriminate]. destruct (exec t s) as [s'|] eqn:Q; [|discriminate].
    exists t, p, s'. repeat split; auto. intros g ->. discriminate.
  - left. intros t p s' E Q. destruct (is192 p) eqn:W; [destruct p; try discriminate; eauto|]. exfalso.
    assert (Y : existsb (can_move s) (seq 0 (length (pcs s))) = true); [|congruence]. apply existsb_exists. exists t.
    split; [apply in_seq; split; [lia|]; cbn; apply nth_error_Some; congruence|]. unfold can_move. rewrite E, Q, W. reflexivity.
Qed.

Lemma calm_step : forall s t p s', calm s -> nth_error (pcs s) t = Some p -> exec t s = Some s' -> (forall g, p <> W192 g) -> calm s' /\ wake s' = wake s.
Proof.
  intros s t p s' C E X N. pose proof (proj2 C _ _ E) as R. unfold exec in X. rewrite E in X. destruct p; try contradiction; try discriminate.
  - exfalso. eapply N. reflexivity.
  - destruct (mtx s); [discriminate|]. injection X as <-. split; [|reflexivity]. split; [exact (proj1 C)|].
    intros u q E'. proj. rewrite (lset_nth _ _ _ _ _ E) in E'. destruct (Nat.eq_dec u t); [injection E' as <-; exact Logic.I | exact (proj2 C _ _ E')].
Qed.
Lemma settle : forall k g0 s, inv g0 s -> lsum rank (pcs s) <= Z.of_nat k ->
  exists l s', run l s = Some s' /\ Forall internal l /\ settled s' /\ inv g0 s' /\
    notifies (clog s') + lsum fn (pcs s') <= notifies (clog s) + lsum fn (pcs s) /\ (calm s -> wake s' = wake s).
Proof.
  induction k as [|k IH]; intros g0 s I B; (destruct (settled_dec s) as [S|(t & p & s' & E & N & X)];
    [exists [], s; split; [reflexivity|]; split; [constructor|]; split; [exact S|]; split; [exact I | split; [lia | reflexivity]]|]).
  - pose proof (exec_rank _ _ _ _ E X N). pose proof (lsum_nonneg rank (pcs s') (fun _ q _ => rank_pos q)). lia.
  - pose proof (exec_rank _ _ _ _ E X N). pose proof (exec_notifies _ _ _ X) as Q.
    destruct (IH g0 s') as (l & s'' & R & Fl & S & I' & Q' & CW); [eapply exec_inv; eauto | lia|].
    exists (AStep t :: l), s''. split; [cbn; rewrite X; exact R|]. split; [constructor; [exact Logic.I | exact Fl]|].
    split; [exact S|]. split; [exact I'|]. split; [lia|].
    intros C. destruct (calm_step _ _ _ _ C E X N) as (C' & W'). rewrite <- W'. auto.
Qed.

Lemma mod_eq_diff : forall a b m, 0 < m -> a mod m = b mod m -> 0 <= a - b < m -> a = b.
Proof. intros a b m M H D. pose proof (Z.div_mod a m ltac:(lia)) as A. pose proof (Z.div_mod b m ltac:(lia)) as B. rewrite H in A.
  set (x := a / m) in *. set (y := b / m) in *. assert (x = y) by nia. subst x. lia. Qed.

(** an eligible waiter goes through *)
Lemma take_one : forall g0 s, inv g0 s -> calm s -> 0 < wake s -> notifies (clog s) < two64 ->
  exists t l s', run l s = Some s' /\ Forall internal l /\ wake s' = wake s - 1 /\ clog s' = EWake t :: clog s /\ calm s'.
Proof.
  intros g0 s I S W NB. destruct (settled_tok _ _ I S) as (T & P). pose proof (proj1 S) as L.
  pose proof (pending_bound _ (i_legal _ _ I)) as PB.
  destruct (ready (clog s) (waiters (clog s))) as [|t r] eqn:R; [change (zlen (@nil nat)) with 0 in PB; lia|].
  assert (J : In t (ready (clog s) (waiters (clog s)))) by (rewrite R; left; reflexivity). unfold ready in J. apply filter_In in J.
  destruct J as (J & SI). assert (SI' : 0 < since t (clog s)) by lia. destruct (settled_waiter _ _ _ I S J) as (g & E).
  assert (G : (gen s =? g) = false).
  { apply Z.eqb_neq. intros Q. rewrite (i_gen _ _ I), (i_g _ _ I _ _ _ E eq_refl) in Q.
    rewrite (lsum_unlocked _ _ fa I fa_hl L) in Q. unfold u64 in Q. pose proof (since_bounds t (clog s)). pose proof (grants_notifies (clog s)).
    apply mod_eq_diff in Q; [lia | reflexivity | lia]. }
  exists t, [AStep t; AStep t; AStep t; AStep t; AStep t; AStep t; AStep t]. eexists.
  cbn [run do_act]. unfold exec at 1. rewrite E. assert (Z1 : (0 <? sem s) = true) by lia. rewrite Z1.
  cbn [run do_act]. unfold exec at 1, lock_c. proj. rewrite (lset_eq _ _ _ _ E), L. proj.
  unfold exec at 1. proj. rewrite lset_lset, (lset_eq _ _ _ _ E). proj. assert (Z2 : (wake s =? 0) = false) by lia. rewrite Z2.
  unfold exec at 1. proj. rewrite ?lset_lset, (lset_eq _ _ _ _ E). proj. rewrite G.
  unfold exec at 1. proj. rewrite ?lset_lset, (lset_eq _ _ _ _ E). proj.
  unfold exec at 1. proj. rewrite ?lset_lset, (lset_eq _ _ _ _ E). proj.
  unfold exec at 1. proj. rewrite ?lset_lset, (lset_eq _ _ _ _ E). proj.
  split; [reflexivity|]. proj. rewrite ?lset_lset. split; [repeat constructor|].
  pose proof (inv_bounds _ _ I) as B. pose proof (b_wake _ B). pose proof (b_wait _ B). pose proof (i_len _ _ I).
  split; [apply u64_small; unfold two31, two64 in *; lia|]. split; [reflexivity|]. split; [reflexivity|].
  intros u q E'. proj. rewrite ?lset_lset in E'. rewrite (lset_nth _ _ _ _ _ E) in E'. destruct (Nat.eq_dec u t); [injection E' as <-; exact Logic.I | exact (proj2 S _ _ E')].
Qed.

Lemma progress : forall g0 s, inv g0 s -> notifies (clog s) + lsum fn (pcs s) < two64 ->
  exists l s', run l s = Some s' /\ Forall internal l /\ at_rest s'.
Proof.
  assert (A : forall k g0 s, inv g0 s -> calm s -> notifies (clog s) < two64 -> wake s <= Z.of_nat k ->
    exists l s', run l s = Some s' /\ Forall internal l /\ at_rest s').
  { induction k as [|k IH]; intros g0 s I S NB W.
    - destruct (settle (Z.to_nat (lsum rank (pcs s))) g0 s I) as (l2 & s2 & R2 & Fl2 & S2 & I2 & N2 & W2).
      { pose proof (lsum_nonneg rank (pcs s) (fun _ q _ => rank_pos q)). lia. }
      exists l2, s2. split; [exact R2|]. split; [exact Fl2|]. intros t. destruct (exec t s2) as [s'|] eqn:X; [|reflexivity].
      destruct (nth_error (pcs s2) t) as [p|] eqn:E; [|unfold exec in X; rewrite E in X; discriminate].
      destruct (S2 _ _ _ E X) as (g & ->). unfold exec in X. rewrite E in X.
      destruct (settled_tok _ _ I2 (settled_calm _ _ I2 S2)). specialize (W2 S).
      destruct (0 <? sem s2) eqn:Z; [lia | discriminate].
    - destruct (Z_lt_le_dec 0 (wake s)) as [P|P].
      2: { apply (IH g0); auto. lia. }
      destruct (take_one _ _ I S P NB) as (t & l & s1 & R & Fl & W1 & C1 & S1).
      pose proof (run_inv _ _ _ _ I R) as I1.
      destruct (IH g0 s1 I1 S1) as (l2 & s2 & R2 & Fl2 & A2); [rewrite C1; exact NB | lia|].
      exists (l ++ l2), s2. split; [eapply run_app; eauto|]. split; [apply Forall_app; auto | exact A2]. }
  intros g0 s I NB. destruct (settle (Z.to_nat (lsum rank (pcs s))) g0 s I) as (l & s1 & R & Fl & S & I1 & N1 & _).
  { pose proof (lsum_nonneg rank (pcs s) (fun _ q _ => rank_pos q)). lia. }
  assert (FN : 0 <= lsum fn (pcs s1)) by (apply lsum_nonneg; intros ? q ?; destruct q; cbn; lia).
  destruct (inv_bounds _ _ I1) as [B1 _ _].
  destruct (A (Z.to_nat (wake s1)) g0 s1 I1 (settled_calm _ _ I1 S)) as (l2 & s2 & R2 & Fl2 & A2); [lia | lia|].
  exists (l ++ l2), s2. split; [eapply run_app; eauto|]. split; [apply Forall_app; auto | exact A2].
Qed.
