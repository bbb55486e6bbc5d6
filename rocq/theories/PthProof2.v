(** Every action preserves the invariant; nothing is used after it was released. *)
From Verif Require Import CBase ThreadLib PthModel PthSpec PthProof.

Lemma vok_silent : forall i l a r, (forall j v, a <> AReturn j v) -> vok i l r -> vok i (l ++ [a]) r.
Proof.
  intros i l a r N V. assert (K : forall v, In (AReturn i v) (l ++ [a]) <-> In (AReturn i v) l).
  { intros v. rewrite in_app_iff. cbn. split; [intros [X|[X|[]]]; [exact X|] | auto]. apply N in X. destruct X. }
  unfold vok in *. destruct (wp r); intros v'; rewrite K; apply V.
Qed.
Lemma vok_same : forall i l r r', wp r' = wp r -> ecode r' = ecode r -> vok i l r -> vok i l r'.
Proof. intros i l r r' A B V. unfold vok in *. rewrite A, B. exact V. Qed.
Lemma wexec_vok : forall i l r r' q, wexec r = Ret (Some (r', q)) -> vok i l r -> vok i l r'.
Proof.
  intros i l r r' q X V. destruct r as [w o i0 d e h b f c g]. unfold wexec, use, useh, out, vok in *. rp.
  destruct w; rp; try discriminate; repeat match type of X with context [if ?b then _ else _] => destruct b end; try discriminate; injection X as <- <-; rp; exact V.
Qed.
Lemma oexec_vok : forall i l r r' q, rok r -> oexec r = Ret (Some (r', q)) -> vok i l r -> vok i l r'.
Proof.
  intros i l r r' q K X V. destruct r as [w o i0 d e h b f c g]. unfold oexec, use, useh, out, vok in *. rp.
  destruct o; try discriminate; unfold rok, stN in K; rp; repeat match type of X with context [if ?b then _ else _] => destruct b end; try discriminate; injection X as <- <-; rp; try exact V.
  destruct K as ((-> & _) & _). exact V.
Qed.

Lemma act_inv : forall n l s a, inv n l s -> exists y, do_act a s = Ret y /\ match y with Some s' => inv n (l ++ [a]) s' | None => True end.
Proof.
  intros n l s a I. destruct a; cbn [do_act]; (destruct (nth_error (recs s) i) as [r|] eqn:E; [|exists None; auto]);
    pose proof (i_ok _ _ _ I _ _ E) as K; pose proof (i_v _ _ _ I _ _ E) as V; pose proof (i_O _ _ _ I _ _ E) as LO; pose proof (i_W _ _ _ I _ _ E) as LW.
  - destruct o; (apply (upd_inv n l s i r _ _ _ I E); [reflexivity|..]).
    + intros _. apply oexec_good; [exact K|]. intros H. destruct (hW (wp r)) eqn:Q; [|reflexivity]. apply LO in H. pose proof (proj1 LW eq_refl). congruence.
    + intros r' q X. apply vok_silent; [discriminate|]. eapply oexec_vok; eauto.
    + intros C. apply wexec_good; [exact K|]. intros H. apply LO in H. split; [destruct (hW (wp r)) eqn:Q; [|reflexivity]; pose proof (proj1 LW eq_refl); congruence|].
      destruct C as [C|C]; [congruence|]. intros W. unfold wexec, out in C. rewrite W in C. eapply C. reflexivity.
    + intros r' q X. apply vok_silent; [discriminate|]. eapply wexec_vok; eauto.
  - apply (upd_inv n l s i r _ _ _ I E); [reflexivity|..].
    + intros _. destruct (op r) eqn:O; try exact Logic.I. unfold rok in K. rewrite O in K. subst r. destruct ok; cbn; unfold rok, stN; cbn; auto 20.
    + intros r' q X. apply vok_silent; [discriminate|]. destruct (op r); try discriminate. destruct ok; injection X as <- <-; (eapply vok_same; [| |exact V]; reflexivity).
  - apply (upd_inv n l s i r _ _ _ I E); [reflexivity|..].
    + intros _. destruct (op r) eqn:O; try exact Logic.I. unfold rok in K. rewrite O in K. destruct r as [w o i0 d e h b f c g]. unfold stN in K. rp. fin.
      destruct ok; cbn; unfold rok, stN; cbn; auto 20.
    + intros r' q X. apply vok_silent; [discriminate|]. destruct (op r); try discriminate. unfold use in X. destruct (live r); [|destruct ok; discriminate].
      destruct ok; injection X as <- <-; (eapply vok_same; [| |exact V]; reflexivity).
  - apply (upd_inv n l s i r _ _ _ I E); [reflexivity|..].
    + intros _. destruct (wp r) eqn:W; try exact Logic.I. destruct r as [w o i0 d e h b f c g]. rp. subst w.
      unfold rok, use, live, good, out, stA, stB, stF, stN, fresh in *. rp. destruct o; fin; cbn; unfold stA, stB, stF, stN; cbn in *; try congruence; try (intuition congruence).
    + intros r' q X. destruct (wp r) eqn:W; try discriminate. unfold use in X. destruct (live r); [|discriminate]. injection X as <- <-.
      unfold vok in *. rewrite W in V. rp. intros v'. rewrite in_app_iff. cbn. split; [intros [X|[X|[]]]; [destruct (V _ X) | congruence] | intros ->; auto].
  - apply (upd_inv n l s i r _ _ _ I E); [reflexivity|..].
    + intros _. destruct (op r) eqn:O; try exact Logic.I. unfold rok in K. rewrite O in K. unfold good, out. split; [|cbn; rewrite O; auto]. unfold rok. cbn. exact K.
    + intros r' q X. apply vok_silent; [discriminate|]. destruct (op r); try discriminate. injection X as <- <-. eapply vok_same; [| |exact V]; reflexivity.
  - apply (upd_inv n l s i r _ _ _ I E); [reflexivity|..].
    + intros _. destruct (op r) eqn:O; try exact Logic.I. unfold rok in K. rewrite O in K. unfold good, out. split; [|cbn; rewrite O; auto]. unfold rok. cbn. exact K.
    + intros r' q X. apply vok_silent; [discriminate|]. destruct (op r); try discriminate. injection X as <- <-. eapply vok_same; [| |exact V]; reflexivity.
Qed.
Lemma init_inv : forall n, inv n [] (t_init n).
Proof.
  intros n. constructor; cbn [t_init recs lk].
  - apply repeat_length.
  - intros i r E. apply nth_error_repeat in E. subst. reflexivity.
  - intros i r E. apply nth_error_repeat in E. subst. split; discriminate.
  - intros i r E. apply nth_error_repeat in E. subst. split; discriminate.
  - intros i r E. apply nth_error_repeat in E. subst. intros v [].
  - discriminate.
Qed.
Lemma run_inv : forall n l2 l1 s s', inv n l1 s -> run l2 s = Some s' -> inv n (l1 ++ l2) s'.
Proof.
  induction l2 as [|a l2 IH]; intros l1 s s' I R; cbn in R; [rewrite app_nil_r; congruence|].
  destruct (act_inv n l1 s a I) as ([s1|] & E & I1); rewrite E in R; [|discriminate].
  replace (l1 ++ a :: l2) with ((l1 ++ [a]) ++ l2) by (rewrite <- app_assoc; reflexivity). eapply IH; eauto.
Qed.
