(** Every step keeps the invariant: the steps one by one. *)
From Verif Require Import CBase McsModel McsSpec McsProof McsProof2 McsProof3.

Ltac proj := cbn [tail nxt nfl rfl evs nev pcs mlog go set_tail set_nxt set_nfl set_rfl set_ev memit after_wait after_set set_sflag set_wflag sflag wflag] in *.
Ltac fld := let x := fresh "x" in intros x; first [left; reflexivity
  | match goal with |- context [upd _ ?i _ x] => destruct (Z.eq_dec x i) as [-> | ?]; [right; first [left; reflexivity | right; eexists; reflexivity | reflexivity | cbn; reflexivity] | left; apply upd_ne; assumption] end].
Ltac easyev P := try (let u := fresh in let e := fresh in intros u e _ _; left; reflexivity);
  try (let e := fresh in let H := fresh in intros e H; discriminate H);
  try (let k := fresh in let e := fresh in let H := fresh in intros k e H; first [discriminate H | congruence]).
Ltac std P := proj; try rewrite P; try (exact Logic.I); try reflexivity; try (apply upd_eq); try (intros; apply upd_ne; assumption); try lia; try (fld); easyev P;
  try (left; split; reflexivity); try (let r := fresh in let E := fresh in let L := fresh in intros r E L; exact L).

(** the predecessor's thread is not far into its release *)
Definition plain (pp : pc) : Prop :=
  match pp with PWait4 (WNext _) (Some _) | PWait5 (WNext _) _ | PRel3 _ | PSet (SReady _ _) => False | _ => True end.
Lemma plain_early fp pp ev : plain pp -> (early fp pp ev <-> fp = F0).
Proof. destruct pp; cbn; try tauto; destruct k; cbn; try tauto; destruct e; cbn; tauto. Qed.
Lemma plain_late fp pp ev : plain pp -> (late fp pp ev <-> fp = F1).
Proof. destruct pp; cbn; try tauto; destruct k; cbn; try tauto; destruct e; cbn; tauto. Qed.
Lemma plain_set pp : plain pp -> is_set pp = false.
Proof. destruct pp; cbn; try tauto; destruct k; cbn; tauto. Qed.
Lemma linkP_pp np fp rm pp pp' pm ev p m : plain pp -> plain pp' -> linkP np fp rm pp pm ev p m -> linkP np fp rm pp' pm ev p m.
Proof.
  intros H H' (A & _). split.
  - destruct pm; try contradiction; try (destruct k; try contradiction).
    all: try (rewrite (plain_early fp pp' ev), (plain_set pp') by auto; rewrite (plain_early fp pp ev), (plain_set pp) in A by auto; exact A).
    all: try (rewrite (plain_early fp pp' ev) by auto; rewrite (plain_early fp pp ev) in A by auto; exact A).
    all: try (rewrite (plain_late fp pp' ev) by auto; rewrite (plain_late fp pp ev) in A by auto; exact A).
    + destruct A as (_ & _ & -> & _). destruct H.
    + destruct e; try contradiction. rewrite (plain_late fp pp' ev) by auto; rewrite (plain_late fp pp ev) in A by auto; exact A.
  - destruct pp'; auto. destruct k; auto. contradiction.
Qed.
Lemma plain_link np fp rm pp pm ev p m : plain pp -> linkP np fp rm pp pm ev p m -> fp = F0 \/ fp = F1.
Proof.
  intros H (A & _). destruct pm; try contradiction; try (destruct k; try contradiction).
  all: try (rewrite (plain_early fp pp ev) in A by auto; tauto).
  all: try (rewrite (plain_late fp pp ev) in A by auto; tauto).
  - destruct A as (_ & _ & -> & _). destruct H.
  - destruct e; try contradiction. rewrite (plain_late fp pp ev) in A by auto; tauto.
Qed.

Section steps.
Context (s : mst) (q d : list (Z * Z)) (I : inv s q d) (t : Z).

Lemma noq_head n p : pcs s t = p -> granted p = false -> (forall r, q = (n, t) :: r -> headok s n t -> False) -> 
  In (n, t) q -> exists pr tp, adj q pr tp n t.
Proof.
  intros P G H Q. destruct (pred_cases _ _ _ Q) as [(r & E) | H']; [|exact H'].
  exfalso. eapply H; eauto. eapply (i_head _ _ _ I); eauto.
Qed.

Lemma step_link n p : pcs s t = PLink n p ->
  inv (go (set_nxt s p (Some n)) t (PSet (SNext n p))) q d.
Proof.
  intros P.
  assert (Q : In (n, t) q) by (apply (i_in _ _ _ I); rewrite P; reflexivity).
  assert (Np : n <> p).
  { destruct (pred_of _ _ _ _ _ _ I (or_introl P)) as [(tp & A) | (X & _)]; [|congruence].
    pose proof (adj_neq _ _ _ _ _ (i_nd _ _ _ I) A). auto. }
  apply (inv_keep2 s q d _ t (PSet (SNext n p)) n I); std P.
  - intros m tm A N1 N2 L. rewrite upd_ne by auto. eapply linkP_pp; [| |exact L]; exact Logic.I.
  - intros p0 tp A N1 N2 ((-> & H1 & H2 & H3 & H4) & L). rewrite upd_eq. split; [|exact L]. auto.
  - intros r E [H | H]; [rewrite P in H; discriminate | rewrite P in H; contradiction].
  - intros r E L. rewrite upd_ne by auto. exact L.
Qed.

Lemma step_snext0 n p : pcs s t = PSet (SNext n p) -> nfl s p = F0 ->
  inv (go (set_nfl s p F1) t (PWait1 (WReady n))) q d.
Proof.
  intros P F.
  assert (Q : In (n, t) q) by (apply (i_in _ _ _ I); rewrite P; reflexivity).
  assert (Np : n <> p).
  { destruct (pred_of _ _ _ _ _ _ I (or_intror P)) as [(tp & A) | (_ & X & _)].
    - pose proof (adj_neq _ _ _ _ _ (i_nd _ _ _ I) A). auto.
    - intros ->. apply (X t). rewrite P. reflexivity. }
  apply (inv_keep2 s q d _ t (PWait1 (WReady n)) n I); std P.
  - intros m tm A N1 N2 L. rewrite upd_ne by auto. eapply linkP_pp; [| |exact L]; exact Logic.I.
  - intros p0 tp A N1 N2 ((-> & H1 & H2 & H3) & L). rewrite upd_eq, F in *. split; [|exact L]. split; [exact H1|]. split; [|exact H3].
    destruct (pcs s tp); cbn in *; try reflexivity; try contradiction; destruct k; cbn in *; try reflexivity; try contradiction; auto.
    destruct e; cbn in *; [destruct H2; discriminate | reflexivity].
  - intros r E [H | H]; [rewrite P in H; discriminate | rewrite P in H]. destruct H as (H1 & H2 & H3).
    right. proj. rewrite upd_eq. exact H1.
  - intros r E (L1 & L2 & L3). rewrite upd_ne by auto. split; [exact L1|]. split; [exact L2|]. exact Logic.I.
Qed.

Lemma step_snextE n p e : pcs s t = PSet (SNext n p) -> nfl s p = FE e ->
  inv (go s t (PSetEv (SNext n p) e)) q d.
Proof.
  intros P F.
  assert (Q : In (n, t) q) by (apply (i_in _ _ _ I); rewrite P; reflexivity).
  apply (inv_keep2 s q d _ t (PSetEv (SNext n p) e) n I); std P.
  - intros m tm A N1 N2 L. eapply linkP_pp; [| |exact L]; exact Logic.I.
  - intros p0 tp A N1 N2 ((-> & H1 & H2 & H3) & L). split; [|exact L]. rewrite F in *.
    pose proof (q_own _ _ _ _ _ I (adj_l _ _ _ _ _ A)) as O.
    split; [reflexivity|]. split; [exact H1|].
    destruct (pcs s tp); cbn in H2; try discriminate; try contradiction; destruct k; try discriminate; try contradiction;
      destruct e0; try discriminate. destruct H2 as (H2 & H4). injection H2 as <-. cbn in O. injection O as <-. auto.
  - intros r E [H | H]; [rewrite P in H; discriminate | rewrite P in H]. destruct H as (H1 & H2 & H3). congruence.
Qed.

Lemma snext_not1 n p : pcs s t = PSet (SNext n p) -> nfl s p <> F1.
Proof.
  intros P F. assert (Q : In (n, t) q) by (apply (i_in _ _ _ I); rewrite P; reflexivity).
  destruct (pred_cases _ _ _ Q) as [(r & E) | (p0 & tp & A)].
  - pose proof (i_head _ _ _ I _ _ _ E) as [H | H]; rewrite P in H; [discriminate|]. destruct H as (_ & X & _). congruence.
  - pose proof (i_adj _ _ _ I _ _ _ _ A) as (L & _). rewrite P in L. destruct L as (-> & _ & L & _). rewrite F in L.
    destruct (pcs s tp); cbn in L; try discriminate; try contradiction; destruct k; try discriminate; try contradiction; destruct e; try discriminate.
    destruct L; discriminate.
Qed.

Lemma step_setevnext n p e : pcs s t = PSetEv (SNext n p) e ->
  (exists b, evs s e = EvOpen b) /\ inv (go (set_ev s e (EvOpen true)) t (PWait1 (WReady n))) q d.
Proof.
  intros P.
  assert (Q : In (n, t) q) by (apply (i_in _ _ _ I); rewrite P; reflexivity).
  assert (A : exists tp, adj q p tp n t /\ pcs s tp = PWait4 (WNext p) (Some e) /\ nfl s p = FE e /\ evs s e = EvOpen false /\ nxt s p = Some n).
  { destruct (pred_cases _ _ _ Q) as [(r & E) | (p0 & tp & A)].
    - pose proof (i_head _ _ _ I _ _ _ E) as [H | H]; rewrite P in H; [discriminate|contradiction].
    - pose proof (i_adj _ _ _ I _ _ _ _ A) as (L & _). rewrite P in L. destruct L as (-> & H1 & H2 & H3 & H4 & _). exists tp. auto 10. }
  destruct A as (tp & A & P4 & F & EF & NX). split; [eauto|].
  assert (U : forall u, u <> tp -> evof (pcs s u) <> Some e).
  { intros u N H. apply N. eapply (i_evu _ _ _ I); [exact H | rewrite P4; reflexivity]. }
  apply (inv_keep2 s q d _ t (PWait1 (WReady n)) n I); std P.
  - intros u e' N H. destruct (Z.eq_dec e' e) as [-> | N']; [right; rewrite upd_eq; eauto | left; apply upd_ne; auto].
  - intros m tm B N1 N2 L.
    assert (Ntm : tm <> tp).
    { intros ->. assert (m = p) by (eapply q_tid; [exact I | eapply adj_r; exact B | eapply adj_l; exact A]). subst m.
      destruct L as (L & _). rewrite P4 in L. exact L. }
    eapply linkP_pp; [| |eapply linkP_ev; [| |exact L]]; try exact Logic.I.
    + intros e' _ H. discriminate.
    + intros e' _ H. apply upd_ne. intros ->. eapply U; eauto.
  - intros p0 tp0 B N1 N2 ((-> & H1 & H2 & H3 & H4 & H5) & L). split; [|exact L]. split; [exact H1|]. split; [|exact H5].
    rewrite H2. cbn. rewrite upd_eq. auto.
  - intros r E H. exfalso. eapply adj_nothead; [apply (i_nd _ _ _ I) | exact A | exact E | reflexivity].
  - intros k e' H. injection H as _ <-. apply upd_eq.
Qed.

Lemma step_setevready n m e : pcs s t = PSetEv (SReady n m) e ->
  (exists b, evs s e = EvOpen b) /\ inv (go (set_ev s e (EvOpen true)) t PIdle) q d.
Proof.
  intros P. destruct (i_set _ _ _ I _ _ _ _ P) as (tm & r & E & P4 & EF). split; [eauto|].
  apply (inv_out s q d _ t PIdle I); std P.
  - intros u e' N H. destruct (Z.eq_dec e' e) as [-> | N']; [right; rewrite upd_eq; eauto | left; apply upd_ne; auto].
  - intros k e' H. injection H as _ <-. apply upd_eq.
Qed.
End steps.
