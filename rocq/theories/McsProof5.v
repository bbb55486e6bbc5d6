(** Every step keeps the invariant: waiting and releasing. *)
From Verif Require Import CBase McsModel McsSpec McsProof McsProof2 McsProof3 McsProof4.

Section steps.
Context (s : mst) (q d : list (Z * Z)) (I : inv s q d) (t : Z).

(** what the own ready flag can be *)
Lemma ready_cases n p : pcs s t = p -> In (n, t) q ->
  (p = PWait1 (WReady n) \/ p = PWait2 (WReady n) \/ exists e, p = PWait3 (WReady n) e) ->
  (rfl s n = F1 /\ exists r, q = (n, t) :: r) \/ (rfl s n = F0 /\ exists p tp, adj q p tp n t).
Proof.
  intros P Q H. destruct (pred_cases _ _ _ Q) as [(r & E) | (p0 & tp & A)].
  - left. split; [|eauto]. pose proof (i_head _ _ _ I _ _ _ E) as [X | X]; rewrite P in X.
    + destruct H as [-> | [-> | (e & ->)]]; discriminate.
    + destruct H as [-> | [-> | (e & ->)]]; exact X.
  - right. split; [|eauto]. pose proof (i_adj _ _ _ I _ _ _ _ A) as (L & _). rewrite P in L.
    destruct H as [-> | [-> | (e & ->)]]; tauto.
Qed.
(** and the own next flag *)
Lemma next_cases n p : pcs s t = p -> In (n, t) q -> plain p -> granted p = true ->
  (nfl s n = F0 \/ nfl s n = F1) /\ (exists r, q = (n, t) :: r) /\ (forall r, q = r ++ [(n, t)] -> nfl s n = F0).
Proof.
  intros P Q H G.
  assert (HL : forall r, q = r ++ [(n, t)] -> nfl s n = F0) by (intros r E; pose proof (i_last _ _ _ I _ _ _ E); unfold lastP in *; tauto).
  split; [|split; [eapply granted_head; eauto; congruence | exact HL]].
  destruct (succ_cases _ _ _ Q) as [(r & E) | (m & tm & A)].
  - left. eapply HL; eauto.
  - eapply plain_link; [|apply (i_adj _ _ _ I _ _ _ _ A)]. rewrite P. exact H.
Qed.

Lemma step_w1ready0 n : pcs s t = PWait1 (WReady n) -> rfl s n = F0 -> inv (go s t (PWait2 (WReady n))) q d.
Proof.
  intros P F. assert (Q : In (n, t) q) by (apply (i_in _ _ _ I); rewrite P; reflexivity).
  apply (inv_keep2 s q d _ t (PWait2 (WReady n)) n I); std P.
  - intros m tm A N1 N2 L. eapply linkP_pp; [| |exact L]; exact Logic.I.
  - intros p tp A N1 N2 L. exact L.
  - intros r E H. destruct (ready_cases n _ P Q) as [(X & _) | (_ & p & tp & A)]; auto; [congruence|].
    exfalso. eapply adj_nothead; [apply (i_nd _ _ _ I) | exact A | exact E | reflexivity].
Qed.

(** the thread gets the lock *)
Lemma step_got n p ev' :
  pcs s t = p -> In (n, t) q -> granted p = false -> plain p -> (exists r, q = (n, t) :: r) ->
  (forall u e, u <> t -> evof (pcs s u) = Some e -> ev' e = evs s e) ->
  (forall k e, p = PWait4 k (Some e) -> evs s e <> EvOpen false) -> (forall k e, p <> PSetEv k e) ->
  (forall r, q = r ++ [(n, t)] -> lastP (nxt s n) (nfl s n) p -> lastP (nxt s n) (nfl s n) (PHeld n)) ->
  inv (mk_m (tail s) (nxt s) (nfl s) (rfl s) ev' (nev s) (upd (pcs s) t (PHeld n)) (EGot n t :: mlog s)) q d.
Proof.
  intros P Q G PL (r & E) HE H4 HS HL. assert (Q' : inq (pcs s t) = Some n) by (apply (i_in _ _ _ I); exact Q).
  apply (inv_keep2 s q d _ t (PHeld n) n I); std P; auto.
  - congruence.
  - intros u e N H. left. eapply HE; eauto.
  - intros m tm A N1 N2 L. eapply linkP_pp; [| |eapply linkP_ev; [| |exact L]]; try exact Logic.I; auto.
    + intros e' X Y. congruence.
    + intros e' _ Y. eapply HE; eauto.
  - intros p0 tp A N1 N2 L. exfalso. eapply adj_nothead; [apply (i_nd _ _ _ I) | exact A | exact E | reflexivity].
  - intros. left. proj. rewrite upd_eq. reflexivity.
  - right. cbn. rewrite G. repeat split; eauto.
Qed.

Lemma step_w1next0 n : pcs s t = PWait1 (WNext n) -> nfl s n = F0 -> inv (go s t (PWait2 (WNext n))) q d.
Proof.
  intros P F. assert (Q : In (n, t) q) by (apply (i_in _ _ _ I); rewrite P; reflexivity).
  destruct (next_cases n _ P Q Logic.I eq_refl) as (_ & (r & E) & _).
  apply (inv_keep2 s q d _ t (PWait2 (WNext n)) n I); std P.
  - intros m tm A N1 N2 L. eapply linkP_pp; [| |exact L]; exact Logic.I.
  - intros p0 tp A N1 N2 L. exact L.
  - intros. left. proj. rewrite upd_eq. reflexivity.
Qed.
(** a thread in its release sees that its next flag is set *)
Lemma step_next1 n p p' : pcs s t = p -> In (n, t) q -> granted p = true -> plain p ->
  (p = PWait1 (WNext n) /\ p' = PRel3 n \/ exists e, p = PWait3 (WNext n) (Some e) /\ p' = PWait5 (WNext n) (Some e)) ->
  nfl s n = F1 -> inv (go s t p') q d.
Proof.
  intros P Q G PL C F.
  destruct (next_cases n _ P Q PL G) as (_ & (r & E) & HL).
  assert (Q' : inq (pcs s t) = Some n) by (apply (i_in _ _ _ I); exact Q).
  assert (X : forall m tm, linkP (nxt s n) (nfl s n) (rfl s m) p (pcs s tm) (evs s) n m -> linkP (nxt s n) (nfl s n) (rfl s m) p' (pcs s tm) (evs s) n m).
  { intros m tm (L & _). rewrite F in *. split; [|destruct C as [(_ & ->) | (e & _ & ->)]; exact Logic.I].
    assert (LT : forall fp ev, late fp p' ev) by (destruct C as [(_ & ->) | (e & _ & ->)]; intros; exact Logic.I).
    destruct (pcs s tm); try contradiction; try destruct k; try contradiction.
    all: try (rewrite (plain_early F1 p) in L by auto; exfalso; intuition discriminate).
    - destruct L as (_ & _ & -> & _). destruct PL.
    - split; [tauto|]. split; [apply LT | tauto].
    - split; [tauto|]. split; [apply LT | tauto].
    - split; [tauto|]. split; [apply LT | tauto].
    - destruct e; [|contradiction]. split; [tauto|]. split; [apply LT | tauto]. }
  apply (inv_keep2 s q d _ t p' n I); std P; auto.
  - congruence.
  - destruct C as [(_ & ->) | (e & _ & ->)]; reflexivity.
  - intros e0 Y. destruct C as [(_ & ->) | (e & Y1 & ->)]; [discriminate|]. injection Y as <-.
    assert (Z1 : evof (pcs s t) = Some e) by (rewrite P, Y1; reflexivity).
    destruct (i_ev _ _ _ I t e Z1) as (Z2 & Z3). repeat split; auto. intros u N H. apply N. eapply (i_evu _ _ _ I); eauto.
  - intros k e Y. destruct C as [(_ & ->) | (e0 & _ & ->)]; discriminate.
  - destruct C as [(_ & ->) | (e & _ & ->)]; exact Logic.I.
  - intros p0 tp A N1 N2 L. exfalso. eapply adj_nothead; [apply (i_nd _ _ _ I) | exact A | exact E | reflexivity].
  - intros. left. proj. rewrite upd_eq. destruct C as [(_ & ->) | (e & _ & ->)]; reflexivity.
  - intros r' E' _. specialize (HL r' E'). congruence.
  - intros k e Y. destruct C as [(Y1 & _) | (e0 & Y1 & _)]; congruence.
  - intros k e Y. destruct C as [(Y1 & _) | (e0 & Y1 & _)]; congruence.
  - left. split; [reflexivity|]. rewrite G. destruct C as [(_ & ->) | (e & _ & ->)]; reflexivity.
Qed.

Lemma step_w2 k : pcs s t = PWait2 k ->
  inv (go (mk_m (tail s) (nxt s) (nfl s) (rfl s) (upd (evs s) (nev s) (EvOpen false)) (nev s + 1) (pcs s) (mlog s)) t (PWait3 k (Some (nev s)))) q d.
Proof.
  intros P.
  assert (HE : forall u e, evof (pcs s u) = Some e -> e <> nev s) by (intros u e H; destruct (i_ev _ _ _ I u e H); lia).
  assert (HN : exists n, inq (pcs s t) = Some n /\ inq (PWait3 k (Some (nev s))) = Some n) by (rewrite P; destruct k; eexists; split; reflexivity).
  destruct HN as (n & Q & Q').
  apply (inv_keep2 s q d _ t (PWait3 k (Some (nev s))) n I); std P; auto.
  - intros u e _ H. left. apply upd_ne. eapply HE; eauto.
  - intros e H. injection H as <-. split; [lia|]. rewrite upd_eq. split; [eauto|]. intros u _ H. eapply HE; eauto.
  - intros k' e H. injection H as _ <-. apply upd_eq.
  - intros m tm A N1 N2 L. eapply linkP_pp; [| |eapply linkP_ev; [| |exact L]]; try (destruct k; exact Logic.I).
    + intros e _ H. discriminate.
    + intros e _ H. apply upd_ne. eapply HE; eauto.
  - intros p tp A N1 N2 L. destruct k as [n0|n0]; [|destruct L; contradiction].
    change (linkP (nxt s p) (nfl s p) (rfl s n) (pcs s tp) (PWait2 (WReady n0)) (upd (evs s) (nev s) (EvOpen false)) p n).
    eapply linkP_ev; [| |exact L]; intros e _ H; apply upd_ne; [eapply HE; eauto | discriminate].
  - intros r E H. unfold headok in *. proj. rewrite upd_eq. rewrite P in H. destruct k; exact H.
Qed.

Lemma step_w3ready0 n e : pcs s t = PWait3 (WReady n) (Some e) -> rfl s n = F0 ->
  inv (go (set_rfl s n (FE e)) t (PWait4 (WReady n) (Some e))) q d.
Proof.
  intros P F. assert (Q : In (n, t) q) by (apply (i_in _ _ _ I); rewrite P; reflexivity).
  assert (EV : evof (pcs s t) = Some e) by (rewrite P; reflexivity).
  destruct (i_ev _ _ _ I t e EV) as (E1 & E2).
  apply (inv_keep2 s q d _ t (PWait4 (WReady n) (Some e)) n I); std P.
  - intros e' H. injection H as <-. repeat split; auto. intros u N H. apply N. eapply (i_evu _ _ _ I); eauto.
  - intros m tm A N1 N2 L. rewrite upd_ne by auto. eapply linkP_pp; [| |exact L]; exact Logic.I.
  - intros p tp A N1 N2 (L & L'). rewrite upd_eq. split; [|exact L']. split; [tauto|]. split; [tauto|]. split; [reflexivity|].
    eapply (i_ev3 _ _ _ I); eauto.
  - intros r E H. destruct (ready_cases n _ P Q) as [(X & _) | (_ & p & tp & A)]; eauto; [congruence|].
    exfalso. eapply adj_nothead; [apply (i_nd _ _ _ I) | exact A | exact E | reflexivity].
Qed.

Lemma step_w3ready1 n e : pcs s t = PWait3 (WReady n) (Some e) -> rfl s n <> F0 ->
  inv (go s t (PWait5 (WReady n) (Some e))) q d.
Proof.
  intros P F. assert (Q : In (n, t) q) by (apply (i_in _ _ _ I); rewrite P; reflexivity).
  assert (EV : evof (pcs s t) = Some e) by (rewrite P; reflexivity).
  destruct (i_ev _ _ _ I t e EV) as (E1 & E2).
  destruct (ready_cases n _ P Q) as [(X & r & E) | (X & _)]; eauto; [|congruence].
  apply (inv_keep2 s q d _ t (PWait5 (WReady n) (Some e)) n I); std P.
  - intros e' H. injection H as <-. repeat split; auto. intros u N H. apply N. eapply (i_evu _ _ _ I); eauto.
  - intros m tm A N1 N2 L. eapply linkP_pp; [| |exact L]; exact Logic.I.
  - intros p tp A N1 N2 L. exfalso. eapply adj_nothead; [apply (i_nd _ _ _ I) | exact A | exact E | reflexivity].
  - intros. right. proj. rewrite upd_eq. exact Logic.I.
Qed.

Lemma step_w3next0 n e : pcs s t = PWait3 (WNext n) (Some e) -> nfl s n = F0 ->
  inv (go (set_nfl s n (FE e)) t (PWait4 (WNext n) (Some e))) q d.
Proof.
  intros P F. assert (Q : In (n, t) q) by (apply (i_in _ _ _ I); rewrite P; reflexivity).
  assert (EV : evof (pcs s t) = Some e) by (rewrite P; reflexivity).
  destruct (i_ev _ _ _ I t e EV) as (E1 & E2).
  pose proof (i_ev3 _ _ _ I _ _ _ P) as E3.
  destruct (next_cases n _ P Q Logic.I eq_refl) as (_ & (r & E) & _).
  apply (inv_keep2 s q d _ t (PWait4 (WNext n) (Some e)) n I); std P.
  - intros e' H. injection H as <-. repeat split; auto. intros u N H. apply N. eapply (i_evu _ _ _ I); eauto.
  - intros m tm A N1 N2 (L & L'). rewrite upd_eq. rewrite F in *. split; [|exact Logic.I].
    destruct (pcs s tm); try contradiction; try destruct k; try contradiction; cbn in *.
    all: try (destruct e0; try contradiction); cbn in *; try (exfalso; intuition discriminate); tauto.
  - intros p tp A N1 N2 L. exfalso. eapply adj_nothead; [apply (i_nd _ _ _ I) | exact A | exact E | reflexivity].
  - intros. left. proj. rewrite upd_eq. reflexivity.
  - intros r' E' (_ & _ & L). destruct L.
Qed.

Lemma step_w4 k e : pcs s t = PWait4 k (Some e) -> evs s e = EvOpen true ->
  inv (go (set_ev s e (EvOpen false)) t (PWait5 k (Some e))) q d.
Proof.
  intros P F.
  assert (EV : evof (pcs s t) = Some e) by (rewrite P; reflexivity).
  destruct (i_ev _ _ _ I t e EV) as (E1 & E2).
  assert (U : forall u, u <> t -> evof (pcs s u) <> Some e) by (intros u N H; apply N; eapply (i_evu _ _ _ I); eauto).
  assert (HN : exists n, inq (pcs s t) = Some n /\ inq (PWait5 k (Some e)) = Some n) by (rewrite P; destruct k; eexists; split; reflexivity).
  destruct HN as (n & Q & Q').
  assert (QI : In (n, t) q) by (apply (i_in _ _ _ I); exact Q).
  assert (HH : exists r, q = (n, t) :: r).
  { destruct k as [n0|n0]; [|eapply granted_head; eauto; rewrite P; reflexivity].
    destruct (pred_cases _ _ _ QI) as [H | (p & tp & A)]; [exact H|].
    pose proof (i_adj _ _ _ I _ _ _ _ A) as (L & _). rewrite P in L. destruct L as (_ & _ & _ & X). congruence. }
  destruct HH as (r & E).
  apply (inv_keep2 s q d _ t (PWait5 k (Some e)) n I); std P; auto.
  - intros u e' N H. left. apply upd_ne. intros ->. eapply U; eauto.
  - intros e' H. injection H as <-. rewrite upd_eq. repeat split; eauto.
  - intros m tm A N1 N2 L.
    assert (UM : forall e', granted (pcs s tm) = false -> evof (pcs s tm) = Some e' -> upd (evs s) e (EvOpen false) e' = evs s e').
    { intros e' _ H. apply upd_ne. intros ->. eapply (U tm); eauto. }
    destruct k as [n0|n0].
    + eapply linkP_pp; [| |eapply linkP_ev; [| |exact L]]; try exact Logic.I; auto. intros e' H. discriminate.
    + destruct L as (L & _). split; [|exact Logic.I]. destruct (pcs s tm); try contradiction; try destruct k; try contradiction; cbn in *; rewrite ?F in *.
      all: try (exfalso; intuition congruence).
      all: try tauto.
      destruct e0 as [e0|]; [|contradiction]. rewrite (UM e0) by auto. tauto.
  - intros p tp A N1 N2 L. exfalso. eapply adj_nothead; [apply (i_nd _ _ _ I) | exact A | exact E | reflexivity].
  - intros. proj. destruct k; [right | left]; proj; rewrite upd_eq; [exact Logic.I | reflexivity].
Qed.

Lemma step_w5next n e : pcs s t = PWait5 (WNext n) (Some e) ->
  inv (go (set_ev s e EvNone) t (PRel3 n)) q d.
Proof.
  intros P. assert (Q : In (n, t) q) by (apply (i_in _ _ _ I); rewrite P; reflexivity).
  assert (EV : evof (pcs s t) = Some e) by (rewrite P; reflexivity).
  assert (U : forall u, u <> t -> evof (pcs s u) <> Some e) by (intros u N H; apply N; eapply (i_evu _ _ _ I); eauto).
  assert (HH : exists r, q = (n, t) :: r) by (eapply granted_head; eauto; rewrite P; reflexivity). destruct HH as (r & E).
  apply (inv_keep2 s q d _ t (PRel3 n) n I); std P; auto.
  - intros u e' N H. left. apply upd_ne. intros ->. eapply U; eauto.
  - intros m tm A N1 N2 L.
    change (linkP (nxt s n) (nfl s n) (rfl s m) (PRel3 n) (pcs s tm) (upd (evs s) e EvNone) n m).
    eapply linkP_ev; [| |]; [intros e' _ H; discriminate | intros e' _ H; apply upd_ne; intros ->; eapply (U tm); eauto |].
    destruct L as (L & _). split; [|exact Logic.I]. destruct (pcs s tm); try contradiction; try destruct k; try contradiction; cbn in *; try tauto.
    destruct L as (_ & _ & X & _). discriminate.
  - intros. left. proj. rewrite upd_eq. reflexivity.
Qed.

(** the releasing thread has read its successor *)
Lemma step_found n m p : pcs s t = p -> (p = PRel1 n \/ p = PRel3 n) -> nxt s n = Some m -> inv (go s t (PSet (SReady n m))) q d.
Proof.
  intros P C X. assert (Q : In (n, t) q) by (apply (i_in _ _ _ I); rewrite P; destruct C as [-> | ->]; reflexivity).
  assert (Q' : inq (pcs s t) = Some n) by (apply (i_in _ _ _ I); exact Q).
  assert (G : granted p = true) by (destruct C as [-> | ->]; reflexivity).
  assert (HH : exists r, q = (n, t) :: r) by (eapply granted_head; eauto; congruence). destruct HH as (r & E).
  apply (inv_keep2 s q d _ t (PSet (SReady n m)) n I); std P; auto.
  - congruence.
  - intros m' tm A N1 N2 (L & _). rewrite X in *. split.
    + destruct (pcs s tm); try contradiction; try destruct k; try contradiction; cbn in *.
      all: try (exfalso; intuition congruence).
      all: try tauto.
      all: try (destruct e; [|contradiction]).
      all: destruct C as [-> | ->]; cbn in L; tauto.
    + destruct (pcs s tm); try contradiction; try destruct k; try contradiction; try (destruct e; try contradiction); intuition congruence.
  - intros p0 tp A N1 N2 L. exfalso. eapply adj_nothead; [apply (i_nd _ _ _ I) | exact A | exact E | reflexivity].
  - intros. left. proj. rewrite upd_eq. reflexivity.
  - intros r' E' (L1 & _). congruence.
  - intros k e Y. destruct C; congruence.
  - intros k e Y. destruct C; congruence.
Qed.

Lemma step_plain n p p' l : pcs s t = p -> In (n, t) q -> granted p = true -> granted p' = true -> plain p -> plain p' -> inq p' = Some n ->
  evof p = None -> evof p' = None -> evsome p' -> arrived l = arrived (mlog s) -> got l = got (mlog s) ->
  (forall k e, p <> PSetEv k e) ->
  (forall r, q = r ++ [(n, t)] -> lastP (nxt s n) (nfl s n) p -> lastP (nxt s n) (nfl s n) p') ->
  inv (mk_m (tail s) (nxt s) (nfl s) (rfl s) (evs s) (nev s) (upd (pcs s) t p') l) q d.
Proof.
  intros P Q G G' PL PL' Q' E0 E0' NV LA LG NS HL.
  assert (HH : exists r, q = (n, t) :: r) by (eapply granted_head; eauto; congruence). destruct HH as (r & E).
  assert (Q0 : inq (pcs s t) = Some n) by (apply (i_in _ _ _ I); exact Q).
  apply (inv_keep2 s q d _ t p' n I); std P; auto.
  - congruence.
  - intros e H. congruence.
  - intros k e ->. discriminate.
  - intros m tm A N1 N2 L. apply (linkP_pp _ _ _ p p'); auto.
  - intros p0 tp A N1 N2 L. exfalso. eapply adj_nothead; [apply (i_nd _ _ _ I) | exact A | exact E | reflexivity].
  - intros. left. proj. rewrite upd_eq. exact G'.
  - intros k e ->. discriminate.
  - left. split; [exact LG | congruence].
Qed.
End steps.
