(** Consequences for whole histories. *)
From Verif Require Import CBase ThreadLib CondModel CondSpec CondProof CondProof2 CondProof3 CondProof4 CondProof5 CondProof6.

Lemma wakes_granted : forall h, wakes h + pending h = granted h.
Proof. induction h as [|e h IH]; cbn; [lia|]. destruct e; cbn; try lia. destruct (_ <? _); lia. Qed.

Lemma legal_app : forall h2 h1, legal (h2 ++ h1) -> legal h1.
Proof. induction h2 as [|e h2 IH]; intros h1 L; [exact L|]. apply IH. destruct e; cbn in L; tauto. Qed.

(** nothing but a wake-up takes a thread out of the set of waiters *)
Lemma stays : forall h2 h1 t, In t (waiters h1) -> ~ In (EWake t) h2 -> In t (waiters (h2 ++ h1)).
Proof.
  induction h2 as [|e h2 IH]; intros h1 t I N; [exact I|]. assert (J : In t (waiters (h2 ++ h1))).
  { apply IH; [exact I|]. intros X. apply N. right. exact X. }
  destruct e; cbn; auto. apply in_in_remove; auto. intros ->. apply N. left. reflexivity.
Qed.
Lemma since_stays : forall h2 h1 t, legal (h2 ++ h1) -> In t (waiters h1) -> ~ In (EWake t) h2 -> since t h1 <= since t (h2 ++ h1).
Proof.
  induction h2 as [|e h2 IH]; intros h1 t L I N; [cbn; lia|].
  assert (N' : ~ In (EWake t) h2) by (intros X; apply N; right; exact X).
  assert (L' : legal (h2 ++ h1)) by (destruct e; cbn in L; tauto).
  specialize (IH h1 t L' I N'). pose proof (grant01 (h2 ++ h1)). destruct e; cbn; try lia.
  destruct (Nat.eq_dec t t0) as [->|D]; [|exact IH]. exfalso. cbn in L. destruct L as (_ & NI). apply NI. apply stays; auto.
Qed.

(** after a broadcast and no later signal, the unused wake-ups are exactly those of the waiters it found *)
Lemma bcast_exact : forall h2 h1 b, legal (h2 ++ EBcast b :: h1) -> silent h2 ->
  pending (h2 ++ EBcast b :: h1) = zlen (ready (h2 ++ EBcast b :: h1) (waiters (h2 ++ EBcast b :: h1))).
Proof.
  induction h2 as [|e h2 IH]; intros h1 b L S.
  - cbn [app]. pose proof (pending_bound _ L) as P. pose proof (ready_le (EBcast b :: h1) (waiters (EBcast b :: h1))) as Q. cbn [app pending waiters] in *. lia.
  - inversion S; subst. cbn [app] in *. assert (L' : legal (h2 ++ EBcast b :: h1)) by (destruct e; cbn in L; tauto).
    specialize (IH h1 b L' H2). destruct e; cbn in H1; try tauto.
    + cbn [legal] in L. destruct L as (_ & NI). cbn [pending waiters ready filter].
      assert (E : (0 <? since t (EWait t :: h2 ++ EBcast b :: h1)) = false).
      { cbn. destruct (Nat.eq_dec t t); [reflexivity | congruence]. }
      rewrite E. fold (ready (EWait t :: h2 ++ EBcast b :: h1) (waiters (h2 ++ EBcast b :: h1))).
      rewrite (ready_ext (EWait t :: h2 ++ EBcast b :: h1) (h2 ++ EBcast b :: h1)); [exact IH|]. intros u I. cbn. destruct (Nat.eq_dec u t); [congruence | reflexivity].
    + cbn [legal] in L. destruct L as (_ & I & P & Sg). cbn [pending waiters].
      rewrite (ready_ext (EWake t :: h2 ++ EBcast b :: h1) (h2 ++ EBcast b :: h1)) by reflexivity.
      rewrite ready_remove; [lia | apply waiters_nodup; auto | auto | apply signalled_since; auto].
Qed.

Lemma in_wake_dec : forall t (h : list ev), In (EWake t) h \/ ~ In (EWake t) h.
Proof.
  intros t h. destruct (in_dec (fun a b : ev => ltac:(decide equality; apply Nat.eq_dec) : {a = b} + {a <> b}) (EWake t) h); auto.
Qed.

Lemma bcast_all : forall h2 h1 b, legal (h2 ++ EBcast b :: h1) -> silent h2 -> pending (h2 ++ EBcast b :: h1) = 0 ->
  forall t, In t (waiters h1) -> In (EWake t) h2.
Proof.
  intros h2 h1 b L S P t I. destruct (in_wake_dec t h2) as [Y|N]; [exact Y|]. exfalso.
  rewrite (bcast_exact _ _ _ L S) in P. set (h := h2 ++ EBcast b :: h1) in *.
  assert (J : In t (waiters h)) by (apply stays; auto).
  assert (Q : 0 < since t h).
  { pose proof (since_stays h2 (EBcast b :: h1) t L I N) as Q. fold h in Q. 
    pose proof (legal_app _ _ L) as L1. pose proof (pending_bound _ L1) as PB. cbn [pending waiters] in PB.
    pose proof (ready_le (EBcast b :: h1) (waiters h1)).
    assert (R : In t (ready (EBcast b :: h1) (waiters h1))).
    { assert (E : ready (EBcast b :: h1) (waiters h1) = waiters h1); [|rewrite E; exact I].
      revert PB. generalize (waiters h1). intros l PB. assert (PB' : zlen l <= zlen (ready (EBcast b :: h1) l)) by lia. clear -PB'.
      unfold ready in *. induction l as [|a l IH]; [reflexivity|]. cbn [filter] in *. destruct (0 <? since a (EBcast b :: h1)).
      - rewrite !zlen_cons in PB'. f_equal. apply IH. lia.
      - rewrite zlen_cons in PB'. pose proof (ready_le (EBcast b :: h1) l). unfold ready in *. lia. }
    unfold ready in R. apply filter_In in R. destruct R. lia. }
  assert (R : In t (ready h (waiters h))) by (unfold ready; apply filter_In; split; [exact J | lia]).
  destruct (ready h (waiters h)) as [|x r]; [contradiction|]. rewrite zlen_cons in P. pose proof (zlen_pos _ r). lia.
Qed.

(** who is woken after the last signal was waiting when it came *)
Lemma was_waiting : forall h2 x h1 t, silent h2 -> is_notify x -> In t (waiters (h2 ++ x :: h1)) -> 0 < since t (h2 ++ x :: h1) -> In t (waiters h1).
Proof.
  induction h2 as [|e h2 IH]; intros x h1 t S N I Q.
  - cbn [app] in I. destruct x; cbn in N; try contradiction; exact I.
  - inversion S; subst. cbn [app] in *. destruct e; cbn in H1; try tauto; cbn in I, Q.
    + destruct (Nat.eq_dec t t0) as [->|D]; [lia|]. destruct I as [->|I]; [congruence|]. eapply IH; eauto.
    + apply in_remove in I. eapply IH; eauto. tauto.
    + eapply IH; eauto.
Qed.
Lemma some_wake : forall h2 h1, legal (h2 ++ h1) -> silent h2 -> pending (h2 ++ h1) < pending h1 ->
  exists a t b, h2 = a ++ EWake t :: b.
Proof.
  induction h2 as [|e h2 IH]; intros h1 L S P; [cbn in P; lia|]. inversion S; subst. cbn [app] in *.
  assert (L' : legal (h2 ++ h1)) by (destruct e; cbn in L; tauto).
  destruct e; cbn in H1; try tauto.
  - destruct (IH h1 L' H2 P) as (a & u & b & ->). exists (EWait t :: a), u, b. reflexivity.
  - exists [], t, h2. reflexivity.
  - destruct (IH h1 L' H2 P) as (a & u & b & ->). exists (ERet t :: a), u, b. reflexivity.
Qed.
Lemma signal_one : forall h2 h1 x, legal (h2 ++ x :: h1) -> silent h2 -> is_notify x -> pending (h2 ++ x :: h1) = 0 -> waiters h1 <> [] ->
  exists t, In t (waiters h1) /\ In (EWake t) h2.
Proof.
  intros h2 h1 x L S N P W. pose proof (legal_app _ _ L) as L1.
  assert (L0 : legal h1) by (destruct x; cbn in L1; tauto). pose proof (pending_le _ L0) as B.
  assert (Z : 0 < zlen (waiters h1)) by (destruct (waiters h1); [congruence|]; rewrite zlen_cons; pose proof (zlen_pos _ l); lia).
  assert (Q : 0 < pending (x :: h1)).
  { destruct x; cbn in N; try contradiction; cbn; [destruct (_ <? _) eqn:G; lia | lia]. }
  destruct (some_wake _ _ L S) as (a & t & b & ->); [lia|]. exists t. split; [|apply in_app_iff; right; left; reflexivity].
  rewrite <- app_assoc in L. apply legal_app in L. cbn [app legal] in L. destruct L as (L & I & P' & Sg).
  unfold silent in S. apply Forall_app in S. destruct S as (_ & S). inversion S; subst.
  eapply was_waiting; eauto. apply signalled_since; auto.
Qed.

(** the threads that have been woken and have not returned *)
Lemma woken_stays : forall t h, woken t h -> forall e, e <> EWait t -> woken t (e :: h).
Proof. intros t h W e N. destruct e; cbn; auto. Qed.
Definition after_wake (p : pc) : bool := match p with W199 _ | W211 | W212 => true | _ => false end.
Definition winv (s : cst) : Prop := forall t p, nth_error (pcs s) t = Some p -> after_wake p = true -> woken t (clog s).

Lemma winv_move : forall s s' t p' , winv s -> pcs s' = lset t p' (pcs s) -> clog s' = clog s ->
  (after_wake p' = true -> exists p, nth_error (pcs s) t = Some p /\ after_wake p = true) -> (exists p, nth_error (pcs s) t = Some p) -> winv s'.
Proof.
  intros s s' t p' W P C A (p & E) u q E' Q. rewrite P, (lset_nth _ _ _ _ _ E) in E'. rewrite C. destruct (Nat.eq_dec u t) as [->|N].
  - injection E' as <-. destruct (A Q) as (p0 & E0 & A0). eapply W; eauto.
  - eapply W; eauto.
Qed.
Lemma winv_emit : forall s s' t p' e, winv s -> pcs s' = lset t p' (pcs s) -> clog s' = e :: clog s ->
  (after_wake p' = true -> e = EWake t) -> (forall u, e = EWait u -> u = t) -> (exists p, nth_error (pcs s) t = Some p) -> winv s'.
Proof.
  intros s s' t p' e W P C A B (p & E) u q E' Q. rewrite P, (lset_nth _ _ _ _ _ E) in E'. rewrite C. destruct (Nat.eq_dec u t) as [->|N].
  - injection E' as <-. rewrite (A Q). left. reflexivity.
  - apply woken_stays; [eapply W; eauto|]. intros X. apply B in X. congruence.
Qed.
Lemma act_winv : forall a s s', winv s -> do_act a s = Some s' -> winv s'.
Proof.
  intros a s s' W H. destruct a; cbn in H.
  - unfold exec, lock_c in H. destruct (nth_error (pcs s) t) as [p|] eqn:E; [|discriminate].
    assert (R : forall n, winv (release s n)).
    { intros n. unfold release. destruct (_ <=? _); exact W. }
    destruct p; try discriminate; try (destruct (lck s); [discriminate|]); try (destruct (0 <? sem s); [|discriminate]);
      try (destruct (mtx s); [discriminate|]); injection H as <-;
      try (eapply winv_move; [exact W | reflexivity | reflexivity | cbn; first [discriminate | intros _; eauto] | eauto]; fail);
      try (eapply winv_emit; [exact W | reflexivity | reflexivity | cbn; first [discriminate | reflexivity] | intros; congruence | eauto]; fail).
    + eapply winv_move; [exact W | reflexivity | reflexivity | destruct (wake s =? 0); cbn; discriminate | eauto].
    + eapply winv_move; [exact W | reflexivity | reflexivity | destruct (gen s =? g); cbn; discriminate | eauto].
    + destruct (wake =? 0); eapply winv_move; [exact W | reflexivity | reflexivity | discriminate | eauto | apply (R 1) | reflexivity | reflexivity | discriminate |].
      unfold release; destruct (_ <=? _); eauto.
    + eapply winv_emit; [exact W | reflexivity | reflexivity | destruct (wake s <? waiting s); cbn; discriminate | intros; congruence | eauto].
    + destruct (wake =? 0); eapply winv_move; [exact W | reflexivity | reflexivity | discriminate | eauto | apply (R 1) | reflexivity | reflexivity | discriminate |].
      unfold release; destruct (_ <=? _); eauto.
    + eapply winv_emit; [exact W | reflexivity | reflexivity | destruct (wake s <? waiting s); cbn; discriminate | intros; congruence | eauto].
    + destruct (wake =? 0); eapply winv_move; [exact W | reflexivity | reflexivity | discriminate | eauto | apply (R (s32 wake)) | reflexivity | reflexivity | discriminate |].
      unfold release; destruct (_ <=? _); eauto.
  - destruct (idle s t); [|discriminate]. destruct (mtx s); [discriminate|]. injection H as <-. exact W.
  - destruct (idle s t && owns (mtx s) t); [|discriminate]. injection H as <-. exact W.
  - destruct (idle s t) eqn:D; [|discriminate]. apply idle_pc in D. destruct (owns (mtx s) t); [|discriminate]. injection H as <-. eapply winv_move; [exact W | reflexivity | reflexivity | discriminate | eauto].
  - destruct (idle s t) eqn:D; [|discriminate]. apply idle_pc in D. injection H as <-. eapply winv_move; [exact W | reflexivity | reflexivity | discriminate | eauto].
  - destruct (idle s t) eqn:D; [|discriminate]. apply idle_pc in D. injection H as <-. eapply winv_move; [exact W | reflexivity | reflexivity | discriminate | eauto].
Qed.
Lemma run_winv : forall l s s', winv s -> run l s = Some s' -> winv s'.
Proof.
  induction l as [|a l IH]; intros s s' I H; cbn in H; [injection H as <-; exact I|]. destruct (do_act a s) as [s1|] eqn:E; [|discriminate].
  eapply IH; [|exact H]. eapply act_winv; eauto.
Qed.
Lemma reach_winv : forall g0 n s, reach 0 0 g0 n s -> winv s.
Proof.
  intros g0 n s (l & R). eapply run_winv; [|exact R]. intros t p E. cbn in E. apply nth_error_repeat in E. subst. discriminate.
Qed.
