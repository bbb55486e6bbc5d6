(** Every step preserves the invariant and no assertion fails. *)
From Verif Require Import CBase ThreadLib RwlockModel RwlockSpec RwlockProof RwlockProof2.

Ltac use_crit C := cbn [crit] in C; unfold rstd, wstd in C.
Ltac frs I E := refine (frame_inv _ _ _ _ _ _ I E _); constructor; [proj; reflexivity|..]; proj; cbn [hl lr lw lq fR fW fL fQ b2z crit]; unfold rstd, wstd; proj;
  try reflexivity; try lia; try tauto; try (rewrite (i_wr _ _ I); lia).

Lemma diff : forall l t p, nth_error l t = Some p -> fR p - fW p <= lsum fR l - lsum fW l.
Proof.
  intros l t p E. pose proof (lsum_member (fun p => fR p + - fW p) l t p) as H. rewrite lsum_add in H.
  assert (K : lsum (fun p => - fW p) l = - lsum fW l) by (clear; induction l; cbn; lia). rewrite K in H.
  specialize (H ltac:(intros ? q _; destruct (fs_pos q) as (? & ? & ? & ? & ?); lia) E). lia.
Qed.
Lemma lw_eq : forall n s t p, inv n s -> nth_error (pcs s) t = Some p -> hl p = true -> fL p = fW p -> lsum fL (pcs s) = lsum fW (pcs s).
Proof.
  intros n s t p I E H F. apply lsum_ext. intros u q E'. destruct (Nat.eq_dec u t) as [->|N]; [replace q with p by congruence; exact F|].
  pose proof (other_free _ _ _ _ _ _ I E H N E') as G. destruct q; try destruct w; cbn in *; try reflexivity; discriminate.
Qed.

Lemma exec_inv : forall n s t, Z.of_nat n < two31 -> inv n s -> exists r, exec t s = Ret r /\ match r with Some s' => inv n s' | None => True end.
Proof.
  intros n s t NB I. assert (T31 : two31 + 1 < two64) by reflexivity. unfold exec, take, go. destruct (nth_error (pcs s) t) as [p|] eqn:E; [|exists None; auto].
  pose proof (sums_pos (pcs s)) as SP. pose proof (i_rd _ _ I) as RD. pose proof (i_wr _ _ I) as WR. pose proof (i_q _ _ I) as QU.
  pose proof (i_len _ _ I) as LN. pose proof (i_ex _ _ I) as EX. pose proof (i_crit _ _ I _ _ E) as C. pose proof (i_own _ _ I _ _ E) as OW.
  pose proof (member (pcs s) t p fR ltac:(auto) E) as MR. pose proof (member (pcs s) t p fL ltac:(auto) E) as ML.
  pose proof (member (pcs s) t p fW ltac:(auto) E) as MW. pose proof (member (pcs s) t p fQ ltac:(auto 6) E) as MQ.
  pose proof (diff _ _ _ E) as DF. pose proof (none_in _ _ I) as (N1 & N2 & N3). pose proof (lw_eq _ _ _ _ I E) as LE.
  pose proof (i_lr _ _ I _ _ E) as LR. pose proof (i_lw _ _ I _ _ E) as LW. pose proof (i_lq _ _ I _ _ E) as LQ.
  pose proof (i_free _ _ I) as FREE. pose proof (i_legal _ _ I) as LG.
  assert (LZ : lsum fR (pcs s) = 0 -> p = W422 -> lsum fL (pcs s) = 0).
  { intros Z ->. apply (lw_zero _ _ I Z). intros u q E' ->. destruct (Nat.eq_dec u t) as [->|N]; [congruence|].
    pose proof (other_free _ _ _ _ _ _ I E eq_refl N E'). discriminate. }
  destruct p; cbn [crit hl lr lw lq fR fW fL fQ b2z] in *; try (eexists; split; [reflexivity | exact Logic.I]).
  all: try (destruct (mx s) as [o|] eqn:M; [eexists; split; [reflexivity | exact Logic.I] | specialize (FREE eq_refl)]).
  all: try (eexists; split; [reflexivity|]; frs I E; fail).
  - (* R342 *) destruct (rev_ s) eqn:RV; [|exists None; auto]. destruct (mx s) eqn:M; [exists None; auto|]. specialize (FREE eq_refl).
    eexists. split; [reflexivity|]. frs I E.
  - (* R346 *) destruct C as (C1 & C2 & C3). unfold rstd, wstd in *. rewrite C3 in C1. symmetry in C1. apply andb_prop in C1. destruct C1 as (C1 & C4).
    apply Z.eqb_eq in C1, C4. rewrite u64_small by lia. eexists. split; [reflexivity|].
    refine (lframe_inv _ _ _ _ _ _ _ I E _). specialize (LE eq_refl eq_refl).
    constructor; [proj; reflexivity | proj; reflexivity | reflexivity |..]; proj; cbn [hl lr lw lq fR fW fL fQ b2z crit rholders wholders wqueue]; try reflexivity; try lia.
    + unfold rstd. proj. rewrite C3, C1, C4. auto.
    + split; [reflexivity | left; reflexivity].
    + exact LW.
    + exact LQ.
    + cbn [legal]. split; [exact LG|]. split; [apply N2; lia|]. split; [apply N3; lia|]. rewrite LR. discriminate.
  - (* R347 *) eexists. split; [reflexivity|]. frs I E. destruct C as (C1 & C2 & C3). unfold rstd in C1. split; [exact C1|]. symmetry. apply Z.eqb_neq. lia.
  - (* R349 *) assert (Z : (writers s =? 0) = true) by lia. rewrite Z. eexists. split; [reflexivity|]. frs I E.
  - (* W369 *) destruct C as (C1 & C2). unfold rstd, wstd in *. rewrite u64_small by lia.
    assert (P : exists p', (if wwait s + 1 =? 1 then W370 else W371) = p' /\ (p' = W370 \/ p' = W371 /\ wwait s <> 0)).
    { destruct (wwait s + 1 =? 1) eqn:Q; eexists; split; try reflexivity; auto. right. split; [reflexivity | lia]. }
    destruct P as (p' & -> & P). eexists. split; [reflexivity|]. refine (lframe_inv _ _ _ _ _ _ _ I E _).
    constructor; [proj; reflexivity | proj; reflexivity | reflexivity |..]; proj; cbn [hl lr lw lq fR fW fL fQ b2z crit rholders wholders wqueue]; try reflexivity; try lia.
    + destruct P as [->|(-> & _)]; reflexivity.
    + destruct P as [->|(-> & P)]; cbn [crit]; unfold rstd, wstd; proj; [split; [exact C2 | lia]|]. split; [|exact C2].
      rewrite C1. replace (wwait s + 1 =? 0) with (wwait s =? 0); [reflexivity|]. lia.
    + rewrite LR. destruct P as [->|(-> & _)]; reflexivity.
    + rewrite LW. destruct P as [->|(-> & _)]; reflexivity.
    + destruct P as [->|(-> & _)]; (split; [reflexivity | left; reflexivity]).
    + destruct P as [->|(-> & _)]; cbn; lia.
    + destruct P as [->|(-> & _)]; cbn; lia.
    + destruct P as [->|(-> & _)]; cbn; lia.
    + destruct P as [->|(-> & _)]; cbn; lia.
    + cbn [legal]. rewrite LR, LW, LQ. split; [exact LG|]. repeat split; discriminate.
  - (* W370 *) eexists. split; [reflexivity|]. frs I E. destruct C as (C1 & C2). split; [|exact C1]. replace (wwait s =? 0) with false by lia. rewrite andb_false_r. reflexivity.
  - (* W418 *) destruct (wev s) eqn:RV; [|exists None; auto]. destruct (mx s) eqn:M; [exists None; auto|]. specialize (FREE eq_refl).
    eexists. split; [reflexivity|]. frs I E.
  - (* W422 *) destruct C as (C1 & C2 & C3). unfold rstd, wstd in *. rewrite C3 in C2. symmetry in C2. apply Z.eqb_eq in C2.
    rewrite u64_small by lia. eexists. split; [reflexivity|].
    refine (lframe_inv _ _ _ _ _ _ _ I E _). specialize (LZ ltac:(lia) eq_refl).
    constructor; [proj; reflexivity | proj; reflexivity | reflexivity |..]; proj; cbn [hl lr lw lq fR fW fL fQ b2z crit rholders wholders wqueue]; try reflexivity; try lia.
    + proj. lia.
    + exact LR.
    + split; [reflexivity | left; reflexivity].
    + split; [intros X; apply in_remove in X; tauto | discriminate].
    + cbn [legal]. split; [exact LG|]. split; [apply N1; lia|]. split; [apply N2; lia|]. apply LQ. reflexivity.
  - (* W423 *) rewrite u64_small by lia. eexists. split; [reflexivity|]. frs I E.
  - (* W424 *) rewrite u64_small by lia. eexists. split; [reflexivity|]. frs I E.
  - (* W426 *) eexists. split; [reflexivity|]. frs I E. destruct C as (C1 & C2 & C3). rewrite C1, C2, C3. auto.
  - (* W428 *) assert (Z : (writers s =? 1) = true) by lia. rewrite Z. eexists. split; [reflexivity|]. frs I E.
  - (* U453 *) eexists. split; [reflexivity|]. destruct w; frs I E.
    + destruct C as (C1 & C2). unfold rstd, wstd in *. split; [reflexivity|]. split; [exact C2|]. intros R. rewrite R in C1. symmetry in C1. apply andb_prop in C1. lia.
    + destruct C as (C1 & C2). unfold rstd, wstd in *. split; [reflexivity|]. split; [exact C2|]. intros R. rewrite R in C1. symmetry in C1. apply andb_prop in C1. lia.
  - (* U454 *) destruct C as (C1 & C2 & C3). unfold wstd in *. eexists. split; [reflexivity|]. destruct (wwait s =? 0) eqn:Q; destruct w; frs I E.
    all: rewrite ?C1, ?Q; cbn; try (split; [reflexivity | exact C2]).
    all: split; [destruct (rev_ s); [specialize (C3 eq_refl); lia | reflexivity] | exact C2].
  - (* U455 *) destruct C as (C1 & C2). unfold rstd, wstd in *. rewrite u64_small by lia.
    assert (P : exists p', (if readers s - 1 =? 0 then U455b else U456) = p' /\ (p' = U455b /\ readers s = 1 \/ p' = U456 /\ readers s <> 1)).
    { destruct (readers s - 1 =? 0) eqn:Q; eexists; (split; [reflexivity|]); [left | right]; split; auto; lia. }
    destruct P as (p' & -> & P). eexists. split; [reflexivity|]. refine (lframe_inv _ _ _ _ _ _ _ I E _).
    constructor; [proj; reflexivity | proj; reflexivity | reflexivity |..]; proj; cbn [hl lr lw lq fR fW fL fQ b2z crit rholders wholders wqueue]; try reflexivity; try lia.
    + destruct P as [(-> & _)|(-> & _)]; reflexivity.
    + destruct P as [(-> & P)|(-> & P)]; cbn [crit]; unfold rstd, wstd; proj; [split; [exact C1 | lia]|]. split; [exact C1|].
      rewrite C2. replace (readers s - 1 =? 0) with (readers s =? 0); [reflexivity|]. lia.
    + destruct P as [(-> & _)|(-> & _)]; (split; [intros X; apply in_remove in X; tauto | discriminate]).
    + destruct P as [(-> & _)|(-> & _)]; (split; [intros X; apply in_remove in X; tauto | discriminate]).
    + rewrite LQ. destruct P as [(-> & _)|(-> & _)]; destruct w; reflexivity.
    + destruct P as [(-> & _)|(-> & _)]; cbn; lia.
    + destruct P as [(-> & _)|(-> & _)]; destruct w; cbn; lia.
    + destruct P as [(-> & _)|(-> & _)]; destruct w; cbn; lia.
    + destruct P as [(-> & _)|(-> & _)]; destruct w; cbn in *; lia.
    + cbn [legal]. rewrite LR, LW. split; [exact LG|]. destruct w; auto.
  - (* U455b *) eexists. split; [reflexivity|]. frs I E. destruct C as (C1 & C2). unfold rstd in C1. split; [exact C1|]. rewrite C2. reflexivity.
Qed.
