(** The invariant of the reader/writer lock. *)
From Verif Require Import CBase ThreadLib RwlockModel RwlockSpec.

Definition hl (p : pc) : bool :=
  match p with
  | R346 | R347 | R348 | W369 | W370 | W371 | W422 | W423 | W424 | W425 | W426 | W427 | U453 _ | U454 _ | U455 _ | U455b | U456 => true
  | _ => false
  end.
(** holds the lock for reading / writing, according to the history *)
Definition lr (p : pc) : bool := match p with R347 | R348 | R349 | HoldR | U450 false | U453 false | U454 false | U455 false => true | _ => false end.
Definition lw (p : pc) : bool :=
  match p with W423 | W424 | W425 | W426 | W427 | W428 | HoldW | U450 true | U453 true | U454 true | U455 true => true | _ => false end.
Definition lq (p : pc) : bool := match p with W370 | W371 | W418 | W422 => true | _ => false end.
Definition b2z (b : bool) : Z := if b then 1 else 0.
(** counted in m_readers, m_writers *)
Definition fR (p : pc) : Z :=
  match p with R347 | R348 | R349 | HoldR | U450 _ | U453 _ | U454 _ | U455 _ | W424 | W425 | W426 | W427 | W428 | HoldW => 1 | _ => 0 end.
Definition fW (p : pc) : Z := match p with W425 | W426 | W427 | W428 | HoldW | U450 true | U453 true => 1 | _ => 0 end.
Definition fL (p : pc) : Z := b2z (lw p).
Definition fQ (p : pc) : Z := b2z (lq p).

Definition rstd (s : rst) : Prop := rev_ s = (writers s =? 0) && (wwait s =? 0).
Definition wstd (s : rst) : Prop := wev s = (readers s =? 0).
Definition crit (s : rst) (p : pc) : Prop :=
  match p with
  | R346 => rstd s /\ wstd s /\ rev_ s = true
  | R347 => rstd s /\ writers s = 0 /\ wwait s = 0
  | R348 | W369 | W371 | W427 | U453 _ | U456 => rstd s /\ wstd s
  | W370 => wstd s /\ wwait s <> 0
  | W422 => rstd s /\ wstd s /\ wev s = true
  | W423 => readers s = 0 /\ writers s = 0
  | W424 => readers s = 1 /\ writers s = 0
  | W425 => readers s = 1 /\ writers s = 1
  | W426 => readers s = 1 /\ writers s = 1 /\ rev_ s = false
  | U454 _ => writers s = 0 /\ wstd s /\ (rev_ s = true -> wwait s = 0)
  | U455 _ => rstd s /\ wstd s
  | U455b => rstd s /\ readers s = 0
  | _ => True
  end.

Record inv (n : nat) (s : rst) : Prop := {
  i_len : zlen (pcs s) = Z.of_nat n;
  i_own : forall t p, nth_error (pcs s) t = Some p -> (hl p = true <-> mx s = Some t);
  i_own2 : forall t, mx s = Some t -> exists p, nth_error (pcs s) t = Some p;
  i_free : mx s = None -> rstd s /\ wstd s;
  i_crit : forall t p, nth_error (pcs s) t = Some p -> crit s p;
  i_rd : readers s = lsum fR (pcs s);
  i_wr : writers s = lsum fW (pcs s);
  i_q : wwait s = lsum fQ (pcs s);
  i_ex : lsum fL (pcs s) = 0 \/ lsum fL (pcs s) = 1 /\ lsum fR (pcs s) <= 1;
  i_lr : forall t p, nth_error (pcs s) t = Some p -> (In t (rholders (rlog s)) <-> lr p = true);
  i_lw : forall t p, nth_error (pcs s) t = Some p -> (In t (wholders (rlog s)) <-> lw p = true);
  i_lq : forall t p, nth_error (pcs s) t = Some p -> (In t (wqueue (rlog s)) <-> lq p = true);
  i_in : forall t, In t (rholders (rlog s)) \/ In t (wholders (rlog s)) \/ In t (wqueue (rlog s)) -> exists p, nth_error (pcs s) t = Some p;
  i_legal : legal (rlog s) }.

Lemma fs_pos : forall p, 0 <= fR p <= 1 /\ 0 <= fW p <= 1 /\ 0 <= fL p <= 1 /\ 0 <= fQ p <= 1 /\ fW p <= fL p /\ fW p <= fR p.
Proof. intros p. unfold fR, fW, fL, fQ, b2z. destruct p; try destruct w; cbn [lr lw lq]; lia. Qed.
Lemma crit_free : forall s p, hl p = false -> crit s p.
Proof. destruct p; cbn; intros; try exact I; congruence. Qed.
Lemma other_free : forall n s t p u q, inv n s -> nth_error (pcs s) t = Some p -> hl p = true -> u <> t -> nth_error (pcs s) u = Some q -> hl q = false.
Proof.
  intros n s t p u q I E H N E'. destruct (hl q) eqn:B; [|reflexivity].
  apply (i_own _ _ I _ _ E') in B. apply (i_own _ _ I _ _ E) in H. congruence.
Qed.
Lemma u64_small : forall x, 0 <= x < two64 -> u64 x = x.
Proof. intros. unfold u64. apply Z.mod_small. exact H. Qed.
Lemma sums_pos : forall l, 0 <= lsum fR l <= zlen l /\ 0 <= lsum fW l <= zlen l /\ 0 <= lsum fL l <= zlen l /\ 0 <= lsum fQ l <= zlen l /\ lsum fW l <= lsum fL l /\ lsum fW l <= lsum fR l.
Proof.
  intros l. repeat split; try (apply lsum_nonneg; intros ? p _; destruct (fs_pos p); lia); try (apply lsum_le_zlen; intros ? p _; destruct (fs_pos p); lia);
    apply lsum_le; intros ? p _; destruct (fs_pos p); lia.
Qed.
Lemma member : forall l t p f, f = fR \/ f = fW \/ f = fL \/ f = fQ -> nth_error l t = Some p -> f p <= lsum f l.
Proof.
  intros l t p f F E. apply (lsum_member f l t p); [|exact E]. intros m a _. destruct (fs_pos a) as (A & B & C & D & _).
  destruct F as [->|[->|[->| ->]]]; lia.
Qed.

Ltac proj := cbn [readers wwait writers rev_ wev mx pcs rlog set_readers set_wwait set_writers set_rev set_wev set_mx set_pc emit] in *.
Ltac pw t E := intros u q E'; proj; rewrite (lset_nth _ _ _ _ _ E) in E'; destruct (Nat.eq_dec u t) as [->|N]; [injection E' as <-|].

(** a step that logs nothing *)
Record frame (s s' : rst) (t : nat) (p p' : pc) : Prop := {
  f_pcs : pcs s' = lset t p' (pcs s);
  f_log : rlog s' = rlog s;
  f_own : (mx s' = mx s /\ hl p' = hl p /\ (hl p = true \/ readers s' = readers s /\ writers s' = writers s /\ wwait s' = wwait s /\ rev_ s' = rev_ s /\ wev s' = wev s))
          \/ (mx s = None /\ mx s' = Some t /\ hl p = false /\ hl p' = true)
          \/ (mx s = Some t /\ mx s' = None /\ hl p = true /\ hl p' = false /\ rstd s' /\ wstd s');
  f_crit : crit s' p';
  f_lr : lr p' = lr p; f_lw : lw p' = lw p; f_lq : lq p' = lq p;
  f_rd : readers s' = readers s - fR p + fR p';
  f_wr : writers s' = lsum fW (pcs s) - fW p + fW p';
  f_q : wwait s' = wwait s;
  f_ex : fR p' <= fR p \/ lsum fR (pcs s) <= 0 }.
Lemma frame_inv : forall n s s' t p p', inv n s -> nth_error (pcs s) t = Some p -> frame s s' t p p' -> inv n s'.
Proof.
  intros n s s' t p p' I E F. constructor; rewrite ?(f_pcs _ _ _ _ _ F), ?(f_log _ _ _ _ _ F).
  - rewrite lset_zlen. apply I.
  - pw t E.
    + pose proof (i_own _ _ I _ _ E) as L. destruct (f_own _ _ _ _ _ F) as [(-> & -> & _)|[(A & -> & B & ->)|(A & -> & B & -> & _)]]; [exact L | |]; intuition congruence.
    + pose proof (i_own _ _ I _ _ E') as L. pose proof (i_own _ _ I _ _ E) as L0.
      destruct (f_own _ _ _ _ _ F) as [(-> & _)|[(A & -> & B & _)|(A & -> & B & _)]]; [exact L | |].
      * rewrite L, A. split; congruence.
      * rewrite L, A. split; congruence.
  - intros u L. rewrite (lset_nth _ _ _ _ _ E). destruct (Nat.eq_dec u t) as [->|N]; [eauto|].
    apply (i_own2 _ _ I). destruct (f_own _ _ _ _ _ F) as [(<- & _)|[(A & B & _)|(A & B & _)]]; congruence.
  - intros L. destruct (f_own _ _ _ _ _ F) as [(A & B & C)|[(A & B & _)|(_ & _ & _ & _ & R)]]; [|congruence | exact R].
    rewrite A in L. destruct C as [C|(C1 & C2 & C3 & C4 & C5)].
    + apply (i_own _ _ I _ _ E) in C. congruence.
    + destruct (i_free _ _ I L) as (R & W). unfold rstd, wstd in *. rewrite C1, C2, C3, C4, C5. auto.
  - pw t E; [apply (f_crit _ _ _ _ _ F)|]. pose proof (i_crit _ _ I _ _ E') as C. pose proof (i_own _ _ I _ _ E') as L.
    destruct (hl q) eqn:H; [|apply crit_free; exact H]. assert (L' : mx s = Some u) by (apply L; reflexivity). pose proof (i_own _ _ I _ _ E) as L0.
    destruct (f_own _ _ _ _ _ F) as [(A & B & [D|(C1 & C2 & C3 & C4 & C5)])|[(A & _)|(A & _)]]; [apply L0 in D; congruence | | congruence | congruence].
    destruct q; cbn in *; unfold rstd, wstd in *; rewrite ?C1, ?C2, ?C3, ?C4, ?C5; exact C.
  - rewrite (lsum_lset _ _ _ _ _ E), (f_rd _ _ _ _ _ F), (i_rd _ _ I). lia.
  - rewrite (lsum_lset _ _ _ _ _ E), (f_wr _ _ _ _ _ F). lia.
  - rewrite (lsum_lset _ _ _ _ _ E), (f_q _ _ _ _ _ F), (i_q _ _ I). unfold fQ. rewrite (f_lq _ _ _ _ _ F). lia.
  - rewrite !(lsum_lset _ _ _ _ _ E). unfold fL at 2 3 5 6. rewrite (f_lw _ _ _ _ _ F). pose proof (i_ex _ _ I). destruct (fs_pos p), (fs_pos p'). destruct (f_ex _ _ _ _ _ F); lia.
  - pw t E; [rewrite (f_lr _ _ _ _ _ F); apply (i_lr _ _ I _ _ E) | apply (i_lr _ _ I _ _ E')].
  - pw t E; [rewrite (f_lw _ _ _ _ _ F); apply (i_lw _ _ I _ _ E) | apply (i_lw _ _ I _ _ E')].
  - pw t E; [rewrite (f_lq _ _ _ _ _ F); apply (i_lq _ _ I _ _ E) | apply (i_lq _ _ I _ _ E')].
  - intros u L. rewrite (lset_nth _ _ _ _ _ E). destruct (Nat.eq_dec u t) as [->|N]; [eauto|]. apply (i_in _ _ I). exact L.
  - apply (i_legal _ _ I).
Qed.
