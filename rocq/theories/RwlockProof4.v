(** Consequences of the invariant of the reader/writer lock; progress. *)
From Verif Require Import CBase ThreadLib RwlockModel RwlockSpec RwlockProof RwlockProof2 RwlockProof3.

Lemma init_inv : forall n, inv n (rw_init n).
Proof.
  intros n. assert (Z : forall f, f Idle = 0 -> lsum f (repeat Idle n) = 0) by (intros f F; apply lsum_zero; intros m a E; apply nth_error_repeat in E; subst; exact F).
  constructor; unfold rw_init; cbn [readers wwait writers rev_ wev mx pcs rlog rholders wholders wqueue legal].
  - unfold zlen. rewrite repeat_length. reflexivity.
  - intros t p E. apply nth_error_repeat in E. subst. split; discriminate.
  - discriminate.
  - intros _. split; reflexivity.
  - intros t p E. apply nth_error_repeat in E. subst. exact Logic.I.
  - rewrite Z; reflexivity.
  - rewrite Z; reflexivity.
  - rewrite Z; reflexivity.
  - left. apply Z. reflexivity.
  - intros t p E. apply nth_error_repeat in E. subst. split; [intros [] | discriminate].
  - intros t p E. apply nth_error_repeat in E. subst. split; [intros [] | discriminate].
  - intros t p E. apply nth_error_repeat in E. subst. split; [intros [] | discriminate].
  - intros t [[]|[[]|[]]].
  - exact Logic.I.
Qed.
Lemma act_inv : forall n a s, Z.of_nat n < two31 -> inv n s -> exists r, do_act a s = Ret r /\ match r with Some s' => inv n s' | None => True end.
Proof.
  intros n a s NB I. destruct a; cbn [do_act].
  - apply exec_inv; assumption.
  - destruct (nth_error (pcs s) t) as [p|] eqn:E; [|exists None; auto]. destruct p; try (exists None; split; [reflexivity | exact Logic.I]).
    eexists. split; [reflexivity|]. frs I E.
  - destruct (nth_error (pcs s) t) as [p|] eqn:E; [|exists None; auto]. destruct p; try (exists None; split; [reflexivity | exact Logic.I]).
    eexists. split; [reflexivity|]. frs I E.
  - destruct (nth_error (pcs s) t) as [p|] eqn:E; [|exists None; auto]. destruct p; try (exists None; split; [reflexivity | exact Logic.I]);
    (eexists; split; [reflexivity|]; frs I E).
Qed.
Lemma run_inv : forall n l s s', Z.of_nat n < two31 -> inv n s -> run l s = Some s' -> inv n s'.
Proof.
  induction l as [|a l IH]; intros s s' NB I R; cbn in R; [congruence|]. destruct (act_inv n a s NB I) as ([s1|] & E & I1); rewrite E in R; [|discriminate].
  eapply IH; eauto.
Qed.
Lemma reach_inv : forall n s, Z.of_nat n < two31 -> reach n s -> inv n s.
Proof. intros n s NB (l & R). eapply run_inv; eauto. apply init_inv. Qed.

(** who can be stuck *)
Lemma rest_free : forall n s, inv n s -> at_rest s -> mx s = None.
Proof.
  intros n s I A. destruct (mx s) as [t|] eqn:M; [exfalso | reflexivity]. destruct (i_own2 _ _ I _ M) as (p & E).
  pose proof (proj2 (i_own _ _ I _ _ E) M) as H. specialize (A t). unfold exec, go, take in A. rewrite E in A.
  destruct p; cbn in H; try discriminate.
Qed.
Lemma rest_pc : forall n s t p, inv n s -> at_rest s -> nth_error (pcs s) t = Some p -> inside p = true ->
  p = R342 /\ rev_ s = false \/ p = W418 /\ wev s = false.
Proof.
  intros n s t p I A E H. pose proof (rest_free _ _ I A) as M. specialize (A t). unfold exec, go, take in A. rewrite E, M in A.
  destruct p; cbn in H; try discriminate.
  - left. destruct (rev_ s); [discriminate | auto].
  - destruct (writers s =? 0); discriminate.
  - right. destruct (wev s); [discriminate | auto].
  - destruct (writers s =? 1); discriminate.
Qed.
Lemma rest_r : forall n s t, inv n s -> at_rest s -> nth_error (pcs s) t = Some R342 ->
  exists u, writing s u \/ nth_error (pcs s) u = Some W418.
Proof.
  intros n s t I A E. destruct (rest_pc _ _ _ _ I A E eq_refl) as [(_ & V)|(V & _)]; [|discriminate].
  destruct (i_free _ _ I (rest_free _ _ I A)) as (R & _). unfold rstd in R. rewrite V in R. symmetry in R. apply andb_false_iff in R.
  pose proof (sums_pos (pcs s)) as SP. rewrite !Z.eqb_neq, (i_wr _ _ I), (i_q _ _ I) in R. destruct R as [R|R].
  - destruct (lsum_pos fW (pcs s)) as (u & q & Eu & Q); [lia|]. exists u. left. unfold writing. rewrite Eu.
    destruct (inside q) eqn:H; [|destruct q; cbn in *; try discriminate; try reflexivity; lia].
    destruct (rest_pc _ _ _ _ I A Eu H) as [(-> & _)|(-> & _)]; cbn in Q; lia.
  - destruct (lsum_pos fQ (pcs s)) as (u & q & Eu & Q); [lia|]. exists u. right. rewrite Eu.
    destruct (inside q) eqn:H; [|destruct q; cbn in *; try discriminate; lia].
    destruct (rest_pc _ _ _ _ I A Eu H) as [(-> & _)|(-> & _)]; [cbn in Q; lia | reflexivity].
Qed.
Lemma rest_w : forall n s t, inv n s -> at_rest s -> nth_error (pcs s) t = Some W418 -> exists u, writing s u \/ reading s u.
Proof.
  intros n s t I A E. destruct (rest_pc _ _ _ _ I A E eq_refl) as [(V & _)|(_ & V)]; [discriminate|].
  destruct (i_free _ _ I (rest_free _ _ I A)) as (_ & W). unfold wstd in W. rewrite V in W. symmetry in W. rewrite Z.eqb_neq, (i_rd _ _ I) in W.
  pose proof (sums_pos (pcs s)) as SP. destruct (lsum_pos fR (pcs s)) as (u & q & Eu & Q); [lia|]. exists u. unfold writing, reading. rewrite Eu.
  destruct (inside q) eqn:H; [|destruct q; cbn in *; try discriminate; auto; lia].
  destruct (rest_pc _ _ _ _ I A Eu H) as [(-> & _)|(-> & _)]; cbn in Q; lia.
Qed.

(** each step brings the calls in progress nearer to their end *)
Definition rank (p : pc) : Z :=
  match p with
  | Idle | HoldR | HoldW => 0
  | R349 | W428 | U456 => 1 | R348 | W427 | U455b => 2 | R347 | W426 | U455 _ => 3 | R346 | W425 | U454 _ => 4 | R342 | W424 | U453 _ => 5
  | W423 | U450 _ => 6 | W422 => 7 | W418 => 8 | W371 => 9 | W370 => 10 | W369 => 11 | W366 => 12
  end.
Lemma rank_pos : forall p, 0 <= rank p. Proof. destruct p; cbn; lia. Qed.
Lemma exec_rank : forall s t s', exec t s = Ret (Some s') -> lsum rank (pcs s') < lsum rank (pcs s).
Proof.
  intros s t s' X. unfold exec, take, go in X. destruct (nth_error (pcs s) t) as [p|] eqn:E; [|discriminate].
  assert (K : forall s'' p', pcs s'' = lset t p' (pcs s) -> rank p' < rank p -> lsum rank (pcs s'') < lsum rank (pcs s)).
  { intros s'' p' Q R. rewrite Q, (lsum_lset _ _ _ _ _ E). lia. }
  destruct p; try discriminate; try (destruct (rev_ s); [|discriminate]); try (destruct (wev s); [|discriminate]); try (destruct (mx s); [discriminate|]);
    try (injection X as <-; eapply K; [proj; reflexivity | cbn; lia]).
  - destruct (writers s =? 0); [|discriminate]. injection X as <-. eapply K; [proj; reflexivity | cbn; lia].
  - injection X as <-. eapply K; [proj; reflexivity|]. destruct (_ =? 1); cbn; lia.
  - destruct (writers s =? 1); [|discriminate]. injection X as <-. eapply K; [proj; reflexivity | cbn; lia].
  - injection X as <-. eapply K; [destruct (wwait s =? 0); proj; reflexivity | cbn; lia].
  - injection X as <-. eapply K; [proj; reflexivity|]. destruct (_ =? 0); cbn; lia.
Qed.
Definition internal (a : act) : Prop := match a with AStep _ => True | _ => False end.
Lemma rest_dec : forall n s, inv n s -> Z.of_nat n < two31 -> at_rest s \/ exists t s', exec t s = Ret (Some s').
Proof.
  intros n s I NB. assert (K : forall k, (forall t, (t < k)%nat -> exec t s = Ret None) \/ exists t s', exec t s = Ret (Some s')).
  { induction k as [|k [IH|IH]]; [left; lia | | auto]. destruct (exec_inv n s k NB I) as ([s'|] & E & _); [right; eauto|].
    left. intros t L. destruct (Nat.eq_dec t k) as [->|N]; [exact E | apply IH; lia]. }
  destruct (K (length (pcs s))) as [A|A]; [left | auto]. intros t. destruct (lt_dec t (length (pcs s))) as [L|L]; [auto|].
  unfold exec. rewrite (proj2 (nth_error_None (pcs s) t)) by lia. reflexivity.
Qed.
Lemma progress : forall k n s, Z.of_nat n < two31 -> inv n s -> lsum rank (pcs s) <= Z.of_nat k ->
  exists l s', run l s = Some s' /\ Forall internal l /\ at_rest s'.
Proof.
  induction k as [|k IH]; intros n s NB I B; (destruct (rest_dec _ _ I NB) as [A|(t & s' & X)]; [exists [], s; auto|]).
  - pose proof (exec_rank _ _ _ X). pose proof (lsum_nonneg rank (pcs s') (fun _ q _ => rank_pos q)). lia.
  - pose proof (exec_rank _ _ _ X). destruct (exec_inv n s t NB I) as (r & X' & I'). rewrite X in X'. injection X' as <-.
    destruct (IH n s' NB I') as (l & s'' & R & F & A); [lia|].
    exists (AStep t :: l), s''. split; [cbn; rewrite X; exact R|]. split; [constructor; [exact Logic.I | exact F] | exact A].
Qed.
