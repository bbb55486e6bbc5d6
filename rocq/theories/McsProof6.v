(** The invariant holds in every calm execution. *)
From Verif Require Import CBase McsModel McsSpec McsProof McsProof2 McsProof3 McsProof4 McsProof5.

Definition good (s : mst) : Prop := exists q d, inv s q d.

Lemma exec_ok s t : good s -> exists r, mexec s t true = Ret r /\ forall s', r = Some s' -> good s'.
Proof.
  intros (q & d & I). unfold mexec.
  assert (ST : forall x : mst, good x -> exists r, Ret (Some x) = Ret r /\ forall s', r = Some s' -> good s').
  { intros x H. eexists. split; [reflexivity|]. intros s' E. injection E as <-. exact H. }
  assert (NO : exists r : option mst, Ret (@None mst) = Ret r /\ forall s', r = Some s' -> good s').
  { eexists. split; [reflexivity|]. discriminate. }
  pose proof (i_in _ _ _ I) as IN.
  destruct (pcs s t) eqn:P.
  - exact NO.
  - apply ST. exists q, d. apply (inv_out s q d _ t (PInit2 n try) I); std P.
    intros x H. left. exact H.
  - apply ST. exists q, d. pose proof (i_init _ _ _ I t) as H0. rewrite P in H0. cbn in H0.
    apply (inv_out s q d _ t (PInit3 n try) I); std P.
    + intros x H. left. exact H.
    + cbn. rewrite upd_eq. auto.
  - apply ST. exists q, d. pose proof (i_init _ _ _ I t) as H0. rewrite P in H0. cbn in H0.
    apply (inv_out s q d _ t (if try then PTry n else PXchg n) I); std P; destruct try; std P.
    all: try (intros x H; left; exact H).
    all: try (cbn; rewrite upd_eq; tauto).
    all: try (intros; discriminate).
  - destruct (tail s) as [x|] eqn:T; apply ST.
    + exists q, d. apply (inv_out s q d _ t PIdle I); std P; try congruence; intros; discriminate.
    + exists (q ++ [(n, t)]), d. apply (inv_enq s q d _ t n (PHeld n) I); auto; proj; auto using upd_eq, upd_ne.
      destruct (i_tail _ _ _ I) as [(-> & _) | (r & x & u & _ & X)]; [|congruence]. left. auto.
  - destruct (tail s) as [p|] eqn:T; apply ST.
    + exists (q ++ [(n, t)]), d. apply (inv_enq s q d _ t n (PLink n p) I); auto; proj; auto using upd_eq, upd_ne.
      destruct (i_tail _ _ _ I) as [(_ & X) | (r & x & u & E & X)]; [congruence|]. rewrite T in X. injection X as <-.
      right. exists r, p, u. auto.
    + exists (q ++ [(n, t)]), d. apply (inv_enq s q d _ t n (PHeld n) I); auto; proj; auto using upd_eq, upd_ne.
      destruct (i_tail _ _ _ I) as [(-> & _) | (r & x & u & _ & X)]; [|congruence]. left. auto.
  - apply ST. exists q, d. apply step_link; auto.
  - destruct k as [n p | n m].
    + cbn. destruct (nfl s p) as [| |e] eqn:F; apply ST; exists q, d.
      * apply step_snext0; auto.
      * exfalso. eapply snext_not1; eauto.
      * apply step_snextE; auto.
    + assert (Q : In (n, t) q) by (apply IN; rewrite P; reflexivity).
      destruct (granted_head _ _ _ _ _ I Q) as (q0 & ->); [rewrite P; reflexivity|].
      cbn. destruct (rfl s m) as [| |e] eqn:F; apply ST; exists q0, (d ++ [(n, t)]).
      * apply (inv_deq s q0 d _ t n m PIdle I); auto; proj; auto using upd_eq, upd_ne.
        all: left; rewrite upd_eq; auto.
      * exfalso. destruct (succ_cases _ _ _ Q) as [(r & E) | (m' & tm & A)].
        -- pose proof (i_last _ _ _ I _ _ _ E) as (_ & _ & L). rewrite P in L. exact L.
        -- pose proof (i_adj _ _ _ I _ _ _ _ A) as L. unfold link in L. rewrite P in L.
           assert (m' = m) by (destruct L as (_ & L); congruence). subst m'.
           apply link_sready in L. rewrite F in L.
           destruct L as [(x0 & _ & _ & X) | [(_ & X) | (x0 & e2 & P4 & X & X')]]; discriminate.
      * apply (inv_deq s q0 d _ t n m (PSetEv (SReady n m) e) I); auto; proj; auto using upd_eq, upd_ne.
        right. exists e. auto.
  - destruct k as [n p | n m].
    + destruct (step_setevnext s q d I t n p e P) as ((b & ->) & H). apply ST. exists q, d. exact H.
    + destruct (step_setevready s q d I t n m e P) as ((b & ->) & H). apply ST. exists q, d. exact H.
  - destruct k as [n|n]; cbn [wflag].
    + assert (Q : In (n, t) q) by (apply IN; rewrite P; reflexivity).
      destruct (ready_cases s q d I t n _ P Q (or_introl eq_refl)) as [(F & H) | (F & _)]; rewrite F; apply ST; exists q, d.
      * apply (step_got s q d I t n _ (evs s) P); auto; first [exact Logic.I | intros; discriminate].
      * apply step_w1ready0; auto.
    + assert (Q : In (n, t) q) by (apply IN; rewrite P; reflexivity).
      destruct (next_cases s q d I t n _ P Q Logic.I eq_refl) as ([F | F] & _); rewrite F; apply ST; exists q, d.
      * apply step_w1next0; auto.
      * apply (step_next1 s q d I t n _ (PRel3 n) P); auto. exact Logic.I.
  - apply ST. exists q, d. apply step_w2; auto.
  - pose proof (i_evs _ _ _ I t) as ES. rewrite P in ES. destruct e as [e|]; [|contradiction].
    destruct k as [n|n]; cbn [wflag set_wflag].
    + destruct (rfl s n) eqn:F; apply ST; exists q, d.
      * apply step_w3ready0; auto.
      * apply step_w3ready1; auto. congruence.
      * apply step_w3ready1; auto. congruence.
    + assert (Q : In (n, t) q) by (apply IN; rewrite P; reflexivity).
      destruct (next_cases s q d I t n _ P Q Logic.I eq_refl) as ([F | F] & _); rewrite F; apply ST; exists q, d.
      * apply step_w3next0; auto.
      * apply (step_next1 s q d I t n _ (PWait5 (WNext n) (Some e)) P); eauto.
  - pose proof (i_evs _ _ _ I t) as ES. rewrite P in ES. destruct e as [e|]; [|contradiction].
    assert (EV : evof (pcs s t) = Some e) by (rewrite P; reflexivity).
    destruct (i_ev _ _ _ I t e EV) as (_ & b & E2). rewrite E2. destruct b; [|exact NO]. apply ST. exists q, d. apply step_w4; auto.
  - pose proof (i_evs _ _ _ I t) as ES. rewrite P in ES. destruct e as [e|]; [|contradiction].
    assert (EV : evof (pcs s t) = Some e) by (rewrite P; reflexivity).
    assert (U : forall u, u <> t -> evof (pcs s u) <> Some e) by (intros u N H; apply N; eapply (i_evu _ _ _ I); eauto).
    apply ST. exists q, d. destruct k as [n|n].
    + assert (Q : In (n, t) q) by (apply IN; rewrite P; reflexivity).
      apply (step_got s q d I t n _ (upd (evs s) e EvNone) P); auto; try discriminate; try exact Logic.I.
      * destruct (pred_cases _ _ _ Q) as [H | (p & tp & A)]; [exact H|].
        pose proof (i_adj _ _ _ I _ _ _ _ A) as (L & _). rewrite P in L. contradiction.
      * intros u e' N H. apply upd_ne. intros ->. eapply U; eauto.
    + apply step_w5next; auto.
  - exact NO.
  - assert (Q : In (n, t) q) by (apply IN; rewrite P; reflexivity).
    destruct (nxt s n) as [m|] eqn:X; apply ST; exists q, d.
    + eapply step_found; eauto.
    + apply (step_plain s q d I t n _ (PRel2 n) (mlog s) P); auto; first [exact Logic.I | intros; discriminate].
  - assert (Q : In (n, t) q) by (apply IN; rewrite P; reflexivity).
    destruct (granted_head _ _ _ _ _ I Q) as (q0 & E); [rewrite P; reflexivity|].
    assert (W : tail s <> Some n -> good (go s t (PWait1 (WNext n)))).
    { intros NT. exists q, d. apply (step_plain s q d I t n _ (PWait1 (WNext n)) (mlog s) P); auto; try exact Logic.I; try discriminate.
      intros r E' _. exfalso. apply NT. destruct (i_tail _ _ _ I) as [(-> & _) | (r' & x & u & E2 & X)]; [discriminate|].
      rewrite E' in E2. apply last_inj in E2. destruct E2 as (-> & ->). exact X. }
    destruct (tail s) as [x|] eqn:T; [|apply ST, W; discriminate]. destruct (x =? n) eqn:XN; [|apply ST, W; apply Z.eqb_neq in XN; congruence].
    apply Z.eqb_eq in XN. subst x. apply ST. exists [], (d ++ [(n, t)]).
    destruct (i_tail _ _ _ I) as [(-> & _) | (r' & x & u & E2 & X)]; [discriminate|]. rewrite T in X. injection X as <-.
    assert (u = t). { eapply (q_node s q d n); [exact I | rewrite E2; apply in_app_iff; right; left; reflexivity | exact Q]. } subst u.
    pose proof (i_nd _ _ _ I) as ND.
    assert (q0 = []). { rewrite E in E2, ND. change ((n, t) :: q0) with ([] ++ (n, t) :: q0) in E2, ND.
      destruct (nodup_split _ _ _ _ _ _ _ ND E2) as (_ & _ & ->). reflexivity. } subst q0. subst q.
    apply (inv_leave s d _ t n I); auto; proj; auto using upd_eq, upd_ne.
  - assert (Q : In (n, t) q) by (apply IN; rewrite P; reflexivity).
    assert (X : exists m, nxt s n = Some m).
    { destruct (succ_cases _ _ _ Q) as [(r & E) | (m & tm & A)].
      - pose proof (i_last _ _ _ I _ _ _ E) as (_ & _ & L). rewrite P in L. destruct L.
      - pose proof (i_adj _ _ _ I _ _ _ _ A) as (L & _). rewrite P in L. cbn in L. exists m.
        destruct (pcs s tm); try contradiction; try destruct k; try contradiction; try tauto.
        destruct e; tauto. }
    destruct X as (m & X). rewrite X. apply ST. exists q, d. eapply step_found; eauto.
Qed.

Theorem good_step s a s' : good s -> calm s a -> mstep s a s' -> good s'.
Proof.
  intros G C H. destruct H as [s t n P U | s t n P U | s t ok s' E | s t n P].
  - destruct G as (q & d & I). exists q, d. apply (inv_out s q d _ t (PInit1 n false) I); std P.
    intros x X. right. injection X as <-. auto.
  - destruct G as (q & d & I). exists q, d. apply (inv_out s q d _ t (PInit1 n true) I); std P.
    intros x X. right. injection X as <-. auto.
  - cbn in C. subst ok. destruct (exec_ok s t G) as (r & E' & H). rewrite E in E'. injection E' as <-. auto.
  - destruct G as (q & d & I). exists q, d.
    assert (Q : In (n, t) q) by (apply (i_in _ _ _ I); rewrite P; reflexivity).
    apply (step_plain s q d I t n _ (PRel1 n) (ERelease n t :: mlog s) P); auto; first [exact Logic.I | intros; discriminate].
Qed.

Theorem good_reach s : mreach calm s -> good s.
Proof.
  induction 1 as [s (B1 & B2 & B3) | s a s' _ IH C H]; [|eapply good_step; eauto].
  exists [], []. constructor; try (intros; rewrite ?B2 in *; discriminate).
  - left. auto.
  - constructor.
  - intros n t. rewrite B2. cbn. split; [discriminate|contradiction].
  - intros t. rewrite B2. exact Logic.I.
  - intros t. rewrite B2. exact Logic.I.
  - intros p tp m tm ([|] & b & E); discriminate.
  - intros n t [|] E; discriminate.
  - rewrite B3. reflexivity.
  - rewrite B3. reflexivity.
Qed.
