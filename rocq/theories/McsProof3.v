(** Every step keeps the invariant. *)
From Verif Require Import CBase McsModel McsSpec McsProof McsProof2.

Lemma granted_head s q d n t : inv s q d -> In (n, t) q -> granted (pcs s t) = true -> exists r, q = (n, t) :: r.
Proof.
  intros I H G. destruct (pred_cases _ _ _ H) as [? | (p & tp & A)]; [auto|].
  pose proof (linkP_notgranted _ _ _ _ _ _ _ _ (i_adj _ _ _ I _ _ _ _ A)). congruence.
Qed.

Lemma inv_keep2 s q d s' t p' n :
  inv s q d ->
  inq (pcs s t) = Some n ->
  tail s' = tail s -> pcs s' t = p' -> (forall u, u <> t -> pcs s' u = pcs s u) -> nev s <= nev s' ->
  inq p' = Some n ->
  (forall x, nxt s' x = nxt s x \/ n = x \/ exists n, pcs s t = PLink n x) ->
  (forall x, nfl s' x = nfl s x \/ n = x \/ exists n, pcs s t = PSet (SNext n x)) ->
  (forall x, rfl s' x = rfl s x \/ n = x) ->
  (forall u e, u <> t -> evof (pcs s u) = Some e ->
     evs s' e = evs s e \/ (evs s' e = EvOpen true /\ exists k, pcs s t = PSetEv k e)) ->
  (forall e, evof p' = Some e -> e < nev s' /\ (exists b, evs s' e = EvOpen b) /\ forall u, u <> t -> evof (pcs s u) <> Some e) ->
  (forall k e, p' = PWait3 k (Some e) -> evs s' e = EvOpen false) ->
  evsome p' ->
  (forall m tm, adj q n t m tm -> tm <> t -> m <> n ->
     linkP (nxt s n) (nfl s n) (rfl s m) (pcs s t) (pcs s tm) (evs s) n m ->
     linkP (nxt s' n) (nfl s' n) (rfl s' m) p' (pcs s tm) (evs s') n m) ->
  (forall p tp, adj q p tp n t -> tp <> t -> p <> n ->
     linkP (nxt s p) (nfl s p) (rfl s n) (pcs s tp) (pcs s t) (evs s) p n ->
     linkP (nxt s' p) (nfl s' p) (rfl s' n) (pcs s tp) p' (evs s') p n) ->
  (forall r, q = (n, t) :: r -> headok s n t -> headok s' n t) ->
  (forall r, q = r ++ [(n, t)] -> lastP (nxt s n) (nfl s n) (pcs s t) -> lastP (nxt s' n) (nfl s' n) p') ->
  (forall k e, pcs s t = PWait4 k (Some e) -> evs s e <> EvOpen false) ->
  (forall k e, pcs s t = PSetEv k e -> evs s' e = EvOpen true) ->
  arrived (mlog s') = arrived (mlog s) ->
  ((got (mlog s') = got (mlog s) /\ granted p' = granted (pcs s t)) \/
   (got (mlog s') = got (mlog s) ++ [(n, t)] /\ granted p' = true /\ granted (pcs s t) = false /\ exists r, q = (n, t) :: r)) ->
  inv s' q d.
Proof.
  intros I Q Ht Hp Hpo Hnev Hinq Hnx Hnf Hrf Hev Hevn Hev3 Hevs HP HS Hhead Hlast Hnb Hse Harr Hgot.
  pose proof (inq_own _ _ Q) as O. pose proof (inq_own _ _ Hinq) as O'.
  assert (QI : In (n, t) q) by (apply (i_in _ _ _ I); exact Q).
  apply (inv_keep s q d s' t p' I); auto.
  - congruence.
  - intros x. rewrite O'. intros X. left. congruence.
  - intros x. rewrite O. destruct (Hnx x) as [? | [-> | ?]]; auto.
  - intros x. rewrite O. destruct (Hnf x) as [? | [-> | ?]]; auto.
  - intros x. rewrite O. destruct (Hrf x) as [? | ->]; auto.
  - destruct p'; try exact Logic.I; discriminate.
  - intros p tp m tm A H. destruct (adj_in _ _ _ _ _ A) as (A1 & A2). pose proof (adj_neq _ _ _ _ _ (i_nd _ _ _ I) A) as N.
    assert (NT : tp <> tm) by (intros ->; apply N; eapply q_tid; eauto).
    pose proof (i_adj _ _ _ I _ _ _ _ A) as L. unfold link in *. destruct H as [-> | ->].
    + assert (p = n) by (eapply q_tid; eauto). subst p. rewrite Hp, Hpo by auto. apply HP; auto.
    + assert (m = n) by (eapply q_tid; eauto). subst m. rewrite Hp, Hpo by auto. apply HS; auto.
  - intros x r E. assert (x = n) by (eapply q_tid; [exact I | rewrite E; left; reflexivity | exact QI]). subst x.
    eapply Hhead; eauto. eapply (i_head _ _ _ I); eauto.
  - intros x r E. assert (x = n) by (eapply q_tid; [exact I | rewrite E; apply in_app_iff; right; left; reflexivity | exact QI]). subst x.
    eapply Hlast; eauto. eapply (i_last _ _ _ I); eauto.
  - intros x m e ->. discriminate.
  - destruct Hgot as [? | (H1 & H2 & H3 & r & H4)]; [auto|]. right. exists n, r. auto.
Qed.

(** a thread outside the queue *)
Lemma inv_out s q d s' t p' :
  inv s q d ->
  inq (pcs s t) = None ->
  tail s' = tail s -> pcs s' t = p' -> (forall u, u <> t -> pcs s' u = pcs s u) -> nev s <= nev s' ->
  inq p' = None ->
  (forall x, own p' = Some x -> own (pcs s t) = Some x \/ ((forall u, own (pcs s u) <> Some x) /\ quiet s x)) ->
  (forall x, nxt s' x = nxt s x \/ own (pcs s t) = Some x) ->
  (forall x, nfl s' x = nfl s x \/ own (pcs s t) = Some x) ->
  (forall x, rfl s' x = rfl s x \/ own (pcs s t) = Some x) ->
  initok s' p' ->
  (forall u e, u <> t -> evof (pcs s u) = Some e ->
     evs s' e = evs s e \/ (evs s' e = EvOpen true /\ exists k, pcs s t = PSetEv k e)) ->
  evof p' = None ->
  (forall n m e, p' <> PSetEv (SReady n m) e) ->
  (forall k e, pcs s t = PSetEv k e -> evs s' e = EvOpen true) ->
  arrived (mlog s') = arrived (mlog s) -> got (mlog s') = got (mlog s) ->
  inv s' q d.
Proof.
  intros I Q Ht Hp Hpo Hnev Hinq Hown Hnx Hnf Hrf Hinit Hev Hevn Hset Hse Harr Hgot.
  assert (NQ : forall n, ~ In (n, t) q) by (intros n H; apply (i_in _ _ _ I) in H; congruence).
  apply (inv_keep s q d s' t p' I); auto.
  - congruence.
  - intros x. destruct (Hnx x); auto.
  - intros x. destruct (Hnf x); auto.
  - intros e E. congruence.
  - intros k e ->. discriminate.
  - destruct p'; try exact Logic.I; cbn in Hevn; subst; destruct k; discriminate.
  - intros p tp m tm A H. destruct (adj_in _ _ _ _ _ A) as (A1 & A2). destruct H as [-> | ->]; exfalso; eapply NQ; eauto.
  - intros n r ->. exfalso. eapply (NQ n). left. reflexivity.
  - intros n r ->. exfalso. eapply (NQ n). apply in_app_iff. right. left. reflexivity.
  - intros k e H. rewrite H in Q. destruct k; discriminate.
  - left. split; [exact Hgot|]. destruct (pcs s t); try destruct k; try discriminate; destruct p'; try destruct k; try destruct k0; try discriminate; reflexivity.
Qed.
