(** Every action preserves the invariant. *)
From Verif Require Import CBase ThreadLib LazyModel LazySpec LazyProof.

Lemma link_same : forall s s', cell s' = cell s -> objs s' = objs s -> mlog s' = mlog s -> link s -> link s'.
Proof. intros s s' A B C L. unfold link, phD, inside_cs in *. rewrite A, B, C. exact L. Qed.
(** a step that changes neither the variable nor the objects *)
Lemma quiet : forall s s' t p p', inv s -> nth_error (pcs s) t = Some p -> pcs s' = lset t p' (pcs s) -> cell s' = cell s -> objs s' = objs s ->
  (ilk s' = ilk s /\ crit p' = crit p \/ ilk s = None /\ ilk s' = Some t /\ crit p' = true \/ ilk s' = None /\ crit p = true /\ crit p' = false /\ (phA s \/ phD s)) ->
  tfact s t p' -> link s' -> legal (mlog s') -> inv s'.
Proof.
  intros s s' t p p' I E P C O L T K G. apply (frame_inv s s' t p p' I E). constructor; auto.
  - destruct L as [L|[(A & B & D)|(A & B & D & X)]]; [auto | right; left; auto 6|]. right. right. unfold phA, phD in *. rewrite C, O. auto.
  - unfold phA, phB, phC, phD. rewrite C, O. apply (i_ph _ I).
  - destruct p'; cbn [tfact] in *; unfold phA, phB, phC, phD, inside_cs in *; rewrite ?C, ?O; exact T.
  - unfold phD, inside_cs. rewrite C, O. auto.
Qed.
Ltac qt I E := eapply (quiet _ _ _ _ _ I E); [reflexivity | reflexivity | reflexivity |..]; mp; cbn [crit tfact];
  [try (left; split; reflexivity) | | try (apply (link_same _ _ eq_refl eq_refl eq_refl), I) | try apply I].

Lemma exec_inv : forall s t, inv s -> exists y, exec t s = Ret y /\ match y with Some s' => inv s' | None => True end.
Proof.
  intros s t I. unfold exec, go, done. destruct (nth_error (pcs s) t) as [p|] eqn:E; [|exists None; auto].
  pose proof (i_t _ I _ _ E) as T. pose proof (i_ph _ I) as PH. pose proof (i_link _ I) as LK. pose proof (i_legal _ I) as LG.
  destruct p; cbn [tfact] in T; try (exists None; split; [reflexivity | exact Logic.I]).
  - (* L124 *) assert (Z : is_null (cell s) = false).
    { destruct PH as [(A & _)|[(A & _)|[(A & _)|(A & _)]]]; destruct (cell s); cbn in *; congruence. }
    rewrite Z. eexists. split; [reflexivity|]. qt I E. exact Logic.I.
  - (* L128 *) eexists. split; [reflexivity|]. destruct (is_mark (cell s)) eqn:M; qt I E; try exact Logic.I.
    destruct PH as [(A & _)|[(A & _)|[(A & _)|A]]]; try congruence; exact A.
  - (* L131 *) destruct (ilk s) eqn:L; [exists None; auto|]. eexists. split; [reflexivity|]. qt I E; [auto 6|]. apply (i_free _ I L).
  - (* L132 *) eexists. split; [reflexivity|]. destruct (is_mark (cell s)) eqn:M; qt I E.
    + destruct T as [T|(T & _)]; [exact T|]. rewrite T in M. discriminate.
    + destruct T as [(T & _)|T]; [congruence | exact T].
  - (* L103 *) destruct T as (-> & M & O). eexists. split; [reflexivity|]. rewrite O. cbn [lset]. eapply frame_inv; [exact I | exact E |].
    assert (X : phC (set_pc (set_objs s [Some None]) t (L104 0))) by (split; [exact M | reflexivity]).
    constructor; [reflexivity|..]; mp; cbn [crit tfact]; auto 6; try (intros; discriminate).
    + split; [intros (D & _); rewrite D in M; discriminate|]. intros u N D. unfold inside_cs in D. destruct (cell s); discriminate.
    + right. destruct LK as [(u & k & (D & _) & _)|(A & B)]; [rewrite D in M; discriminate|].
      split; [|exact B]. unfold inside_cs. mp. destruct (cell s); cbn in M; try discriminate; reflexivity.
  - (* L104 *) destruct T as (-> & M & O). eexists. split; [reflexivity|]. eapply frame_inv; [exact I | exact E |].
    assert (X : phD (set_pc (set_cell s (Obj 0)) t (L140 0))) by (split; [reflexivity | exists None; exact O]).
    constructor; [reflexivity|..]; mp; cbn [crit tfact]; auto 6; try (intros; discriminate).
    + split; [auto|]. intros u N D. unfold inside_cs in D. destruct (cell s); discriminate.
    + right. destruct LK as [(u & k & (D & _) & _)|(A & B)]; [rewrite D in M; discriminate|].
      split; [|exact B]. unfold inside_cs. mp. rewrite O. reflexivity.
  - (* L136 *) eexists. split; [reflexivity|]. assert (Z : is_null (cell s) = false) by (destruct T as (-> & _); reflexivity). rewrite Z. qt I E. auto.
  - (* L140 *) destruct T as [(-> & T)|(-> & T)]; (eexists; split; [reflexivity|]).
    + qt I E; [auto 10 | exact T].
    + qt I E; [auto 10 | exact Logic.I| |].
      * assert (N : forall u, depth u (ELock t ENOMEM :: mlog s) = depth u (mlog s)) by (intros u; cbn; destruct (Nat.eqb t u); cbn; lia).
        destruct LK as [(u & k & (D & _) & _)|(A & B)]; [destruct T as (T & _); rewrite D in T; discriminate|].
        right. split; [exact A|]. intros u. mp. rewrite N. apply B.
      * cbn [legal]. auto.
  - (* L146 *) pose proof T as (C & _). rewrite C. eexists. split; [reflexivity|]. qt I E. auto.
  - (* L147 *) destruct T as (-> & C & x & O). unfold enter. rewrite O. cbn [nth_error]. destruct x as [(u, k)|]; cbn [bind].
    + destruct (Nat.eqb u t) eqn:Q; cbn [bind]; [|exists None; auto]. apply Nat.eqb_eq in Q. subst u. eexists. split; [reflexivity|]. cbn [lset].
      destruct LK as [(u & k' & D & D2 & D3 & D4 & D5)|(A & _)]; [|unfold inside_cs in A; rewrite C, O in A; discriminate].
      rewrite O in D2. injection D2 as <- <-.
      eapply frame_inv; [exact I | exact E |]. set (s' := set_pc _ t Idle). assert (X : phD s') by (split; [exact C | eexists; reflexivity]).
      constructor; [reflexivity|..]; cbn [crit tfact]; auto 6.
      * split; [auto|]. intros u N Q. unfold inside_cs in Q. rewrite C, O in Q. cbn in Q. congruence.
      * left. exists t, (k + 1). split; [exact X|]. split; [reflexivity|]. split; [lia|]. subst s'. mp. cbn [depth]. rewrite Nat.eqb_refl. cbn. split; [lia|].
        intros u N. replace (Nat.eqb t u) with false by (symmetry; apply Nat.eqb_neq; congruence). cbn. rewrite (D5 _ N). reflexivity.
      * subst s'. mp. cbn [legal]. auto.
    + eexists. split; [reflexivity|]. cbn [lset]. destruct LK as [(u & k' & D & D2 & _)|(A & B)]; [rewrite O in D2; discriminate|].
      eapply frame_inv; [exact I | exact E |]. set (s' := set_pc _ t Idle). assert (X : phD s') by (split; [exact C | eexists; reflexivity]).
      constructor; [reflexivity|..]; cbn [crit tfact]; auto 6.
      * split; [auto|]. intros u N Q. congruence.
      * right. split; [exact C | eauto].
      * left. exists t, 1. split; [exact X|]. split; [reflexivity|]. split; [lia|]. subst s'. mp. cbn [depth]. rewrite Nat.eqb_refl, (B t). cbn. split; [reflexivity|].
        intros u N. replace (Nat.eqb t u) with false by (symmetry; apply Nat.eqb_neq; congruence). cbn. rewrite (B u). reflexivity.
      * subst s'. mp. cbn [legal]. auto.
  - (* U153 *) destruct T as (D & T). assert (Z : is_null (cell s) = false) by (destruct D as (-> & _); reflexivity). rewrite Z. eexists. split; [reflexivity|]. qt I E. auto.
  - (* U157 *) destruct T as (D & T). pose proof D as (C & _). rewrite C. eexists. split; [reflexivity|]. qt I E. auto.
  - (* U161 *) destruct T as (D & T). pose proof D as (C & _). rewrite C. eexists. split; [reflexivity|]. qt I E. auto.
  - (* U162 *) destruct T as (-> & D & T). pose proof D as (C & x & O). unfold inside_cs in T. rewrite C, O in T. cbn [nth_error] in T. destruct x as [(u, k)|]; [|discriminate]. injection T as ->.
    unfold leave. rewrite O. cbn [nth_error]. rewrite Nat.eqb_refl. cbn [bind lset]. eexists. split; [reflexivity|].
    destruct LK as [(u & k' & _ & D2 & D3 & D4 & D5)|(A & _)]; [|unfold inside_cs in A; rewrite C, O in A; discriminate].
    rewrite O in D2. injection D2 as <- <-.
    eapply frame_inv; [exact I | exact E |]. set (s' := set_pc _ t Idle). assert (X : phD s') by (split; [exact C | eexists; reflexivity]).
    constructor; [reflexivity|..]; cbn [crit tfact]; auto 6.
    + split; [auto|]. intros u N Q. unfold inside_cs in Q. rewrite C, O in Q. cbn in Q. congruence.
    + assert (M : forall u, u <> t -> depth u (mlog s') = 0).
      { intros u N. subst s'. mp. cbn [depth]. replace (Nat.eqb t u) with false by (symmetry; apply Nat.eqb_neq; congruence). cbn. rewrite (D5 _ N). reflexivity. }
      assert (M2 : depth t (mlog s') = k - 1) by (subst s'; mp; cbn [depth]; rewrite Nat.eqb_refl; cbn; lia).
      destruct (k =? 1) eqn:Q.
      * right. split; [subst s'; unfold inside_cs; mp; rewrite C; reflexivity|]. intros u. destruct (Nat.eq_dec u t) as [->|N]; [lia | auto].
      * left. exists t, (k - 1). split; [exact X|]. split; [reflexivity|]. split; [lia|]. auto.
    + subst s'. mp. cbn [legal]. repeat split; auto. lia.
Qed.
Lemma act_inv : forall s a, inv s -> exists y, do_act a s = Ret y /\ match y with Some s' => inv s' | None => True end.
Proof.
  intros s a I. destruct a; cbn [do_act].
  - apply exec_inv, I.
  - destruct (nth_error (pcs s) t) as [p|] eqn:E; [|exists None; auto]. destruct p; try (exists None; split; [reflexivity | exact Logic.I]).
    pose proof (i_t _ I _ _ E) as (M & O). destruct ok; (eexists; split; [reflexivity|]).
    + rewrite O. cbn [app length]. eapply frame_inv; [exact I | exact E |].
      assert (X : phB (set_pc (set_objs s [None]) t (L103 0))) by (split; [exact M | reflexivity]).
      constructor; [reflexivity|..]; mp; cbn [crit tfact]; auto 6; try (intros; discriminate).
      * split; [intros (D & _); rewrite D in M; discriminate|]. intros u N D. unfold inside_cs in D. destruct (cell s); discriminate.
      * right. destruct (i_link _ I) as [(u & k & (D & _) & _)|(A & B)]; [rewrite D in M; discriminate|].
        split; [|exact B]. unfold inside_cs. mp. destruct (cell s); cbn in M; try discriminate; reflexivity.
      * apply I.
    + qt I E. right. split; [reflexivity | split; assumption].
  - destruct (nth_error (pcs s) t) as [p|] eqn:E; [|exists None; auto]. destruct p; try (exists None; split; [reflexivity | exact Logic.I]).
    eexists; split; [reflexivity|]. qt I E. exact Logic.I.
  - destruct (nth_error (pcs s) t) as [p|] eqn:E; [|exists None; auto]. destruct p; try (exists None; split; [reflexivity | exact Logic.I]).
    destruct (inside_cs s) as [u|] eqn:C; [|exists None; auto]. destruct (Nat.eqb u t) eqn:Q; [|exists None; auto]. apply Nat.eqb_eq in Q. subst u.
    eexists; split; [reflexivity|]. qt I E. split; [|exact C]. destruct (i_ph _ I) as [(A & _)|[(A & _)|[(A & _)|A]]]; [| | |exact A];
    unfold inside_cs in C; destruct (cell s); discriminate.
Qed.
Definition start (n : nat) (s0 : mst) : Prop := s0 = dynamic n \/ exists k, (1 <= k <= 3)%nat /\ s0 = static k n.
Lemma start_inv : forall n s0, start n s0 -> inv s0.
Proof.
  intros n s0 [->|(k & _ & ->)]; constructor; cbn [static dynamic cell objs ilk pcs mlog].
  - intros t p E. apply nth_error_repeat in E. subst. split; discriminate.
  - discriminate.
  - intros _. right. split; [reflexivity | eexists; reflexivity].
  - right. right. right. split; [reflexivity | eexists; reflexivity].
  - intros t p E. apply nth_error_repeat in E. subst. exact Logic.I.
  - right. split; reflexivity.
  - exact Logic.I.
  - intros t p E. apply nth_error_repeat in E. subst. split; discriminate.
  - discriminate.
  - intros _. left. split; reflexivity.
  - left. split; reflexivity.
  - intros t p E. apply nth_error_repeat in E. subst. exact Logic.I.
  - right. split; reflexivity.
  - exact Logic.I.
Qed.
Lemma run_inv : forall l s s', inv s -> run l s = Some s' -> inv s'.
Proof.
  induction l as [|a l IH]; intros s s' I R; cbn in R; [congruence|]. destruct (act_inv s a I) as ([s1|] & E & I1); rewrite E in R; [|discriminate]. eauto.
Qed.
