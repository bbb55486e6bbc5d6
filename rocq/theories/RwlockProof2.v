(** Every step preserves the invariant. *)
From Verif Require Import CBase ThreadLib RwlockModel RwlockSpec RwlockProof.

Definition who (e : ev) : nat := match e with EReqW t | EGotR t | EGotW t | EUnlock t => t end.
Lemma in_rem : forall (u t : nat) l, u <> t -> (In u (remove Nat.eq_dec t l) <-> In u l).
Proof. intros u t l N. split; [intros H; apply in_remove in H; tauto | intros H; apply in_in_remove; auto]. Qed.
Lemma other_log : forall e h u, u <> who e -> (In u (rholders (e :: h)) <-> In u (rholders h)) /\ (In u (wholders (e :: h)) <-> In u (wholders h)) /\ (In u (wqueue (e :: h)) <-> In u (wqueue h)).
Proof.
  intros e h u N. destruct e; cbn [who rholders wholders wqueue] in *; rewrite ?in_rem by auto; cbn [In]; repeat split; try tauto; intros [X|X]; auto; congruence.
Qed.

Record lframe (s s' : rst) (t : nat) (p p' : pc) (e : ev) : Prop := {
  l_pcs : pcs s' = lset t p' (pcs s);
  l_log : rlog s' = e :: rlog s;
  l_who : who e = t;
  l_own : mx s' = mx s; l_hl : hl p = true; l_hl' : hl p' = true;
  l_crit : crit s' p';
  l_lr : In t (rholders (e :: rlog s)) <-> lr p' = true;
  l_lw : In t (wholders (e :: rlog s)) <-> lw p' = true;
  l_lq : In t (wqueue (e :: rlog s)) <-> lq p' = true;
  l_rd : readers s' = readers s - fR p + fR p';
  l_wr : writers s' = writers s - fW p + fW p';
  l_q : wwait s' = wwait s - fQ p + fQ p';
  l_ex : lsum fL (pcs s) - fL p + fL p' = 0 \/ lsum fL (pcs s) - fL p + fL p' = 1 /\ lsum fR (pcs s) - fR p + fR p' <= 1;
  l_legal : legal (e :: rlog s) }.
Lemma lframe_inv : forall n s s' t p p' e, inv n s -> nth_error (pcs s) t = Some p -> lframe s s' t p p' e -> inv n s'.
Proof.
  intros n s s' t p p' e I E F. pose proof (l_who _ _ _ _ _ _ F) as Wh.
  assert (M : mx s = Some t) by (apply (i_own _ _ I _ _ E), F).
  constructor; rewrite ?(l_pcs _ _ _ _ _ _ F), ?(l_log _ _ _ _ _ _ F).
  - rewrite lset_zlen. apply I.
  - pw t E; rewrite (l_own _ _ _ _ _ _ F); [rewrite (l_hl' _ _ _ _ _ _ F); tauto | apply (i_own _ _ I _ _ E')].
  - intros u L. rewrite (l_own _ _ _ _ _ _ F) in L. rewrite (lset_nth _ _ _ _ _ E). destruct (Nat.eq_dec u t) as [->|N]; [eauto|]. apply (i_own2 _ _ I _ L).
  - rewrite (l_own _ _ _ _ _ _ F), M. discriminate.
  - pw t E; [apply (l_crit _ _ _ _ _ _ F)|]. apply crit_free. exact (other_free _ _ _ _ _ _ I E (l_hl _ _ _ _ _ _ F) N E').
  - rewrite (lsum_lset _ _ _ _ _ E), (l_rd _ _ _ _ _ _ F), (i_rd _ _ I). lia.
  - rewrite (lsum_lset _ _ _ _ _ E), (l_wr _ _ _ _ _ _ F), (i_wr _ _ I). lia.
  - rewrite (lsum_lset _ _ _ _ _ E), (l_q _ _ _ _ _ _ F), (i_q _ _ I). lia.
  - rewrite !(lsum_lset _ _ _ _ _ E). apply (l_ex _ _ _ _ _ _ F).
  - pw t E; [apply (l_lr _ _ _ _ _ _ F)|]. rewrite <- (i_lr _ _ I _ _ E'). apply other_log. congruence.
  - pw t E; [apply (l_lw _ _ _ _ _ _ F)|]. rewrite <- (i_lw _ _ I _ _ E'). apply other_log. congruence.
  - pw t E; [apply (l_lq _ _ _ _ _ _ F)|]. rewrite <- (i_lq _ _ I _ _ E'). apply other_log. congruence.
  - intros u L. rewrite (lset_nth _ _ _ _ _ E). destruct (Nat.eq_dec u t) as [->|N]; [eauto|]. apply (i_in _ _ I).
    destruct (other_log e (rlog s) u) as (A & B & C); [congruence|]. tauto.
  - apply (l_legal _ _ _ _ _ _ F).
Qed.

Lemma none_in : forall n s, inv n s -> (lsum fR (pcs s) = 0 -> rholders (rlog s) = []) /\ (lsum fL (pcs s) = 0 -> wholders (rlog s) = []) /\ (lsum fQ (pcs s) = 0 -> wqueue (rlog s) = []).
Proof.
  intros n s I. split; [|split]; intros Z.
  - destruct (rholders (rlog s)) as [|t r] eqn:R; [reflexivity|]. exfalso. assert (J : In t (rholders (rlog s))) by (rewrite R; left; reflexivity).
    destruct (i_in _ _ I t) as (p & E); [auto|]. apply (i_lr _ _ I _ _ E) in J. pose proof (member (pcs s) t p fR ltac:(auto) E).
    destruct p; try destruct w; cbn in *; try discriminate; lia.
  - destruct (wholders (rlog s)) as [|t r] eqn:R; [reflexivity|]. exfalso. assert (J : In t (wholders (rlog s))) by (rewrite R; left; reflexivity).
    destruct (i_in _ _ I t) as (p & E); [auto|]. apply (i_lw _ _ I _ _ E) in J. pose proof (member (pcs s) t p fL ltac:(auto) E).
    unfold fL in *. rewrite J in *. cbn in *. lia.
  - destruct (wqueue (rlog s)) as [|t r] eqn:R; [reflexivity|]. exfalso. assert (J : In t (wqueue (rlog s))) by (rewrite R; left; reflexivity).
    destruct (i_in _ _ I t) as (p & E); [auto|]. apply (i_lq _ _ I _ _ E) in J. pose proof (member (pcs s) t p fQ ltac:(auto 6) E).
    unfold fQ in *. rewrite J in *. cbn in *. lia.
Qed.
(** a writer is alone *)
Lemma lw_zero : forall n s, inv n s -> lsum fR (pcs s) = 0 -> (forall t p, nth_error (pcs s) t = Some p -> p <> W423) -> lsum fL (pcs s) = 0.
Proof.
  intros n s I Z N. apply lsum_zero. intros t p E. pose proof (member (pcs s) t p fR ltac:(auto) E). specialize (N _ _ E).
  destruct p; try destruct w; cbn in *; try reflexivity; try congruence; lia.
Qed.
