(** Every step preserves the invariant. *)
From Verif Require Import CBase ThreadLib CondModel CondSpec CondProof CondProof2.

Lemma crit_free : forall s u q, hl q = false -> crit s u q.
Proof. destruct q; cbn; intros; try exact I; congruence. Qed.
Lemma other_free : forall g0 s t p u q, inv g0 s -> nth_error (pcs s) t = Some p -> hl p = true -> u <> t ->
  nth_error (pcs s) u = Some q -> hl q = false.
Proof.
  intros g0 s t p u q I E H N E'. destruct (hl q) eqn:B; [|reflexivity].
  apply (i_lck _ _ I _ _ E') in B. apply (i_lck _ _ I _ _ E) in H. congruence.
Qed.
Lemma free_free : forall g0 s u q, inv g0 s -> lck s = None -> nth_error (pcs s) u = Some q -> hl q = false.
Proof.
  intros g0 s u q I L E. destruct (hl q) eqn:B; [|reflexivity]. apply (i_lck _ _ I _ _ E) in B. congruence.
Qed.
Lemma val_nonneg : forall p, val p -> 0 <= ftok p.
Proof. destruct p; cbn; lia. Qed.
Lemma tok_member : forall g0 s t p, inv g0 s -> nth_error (pcs s) t = Some p -> ftok p + sem s <= wake s.
Proof.
  intros g0 s t p I E. pose proof (lsum_member ftok _ t p (f_nonneg g0 s ftok I ltac:(auto)) E). pose proof (i_tok _ _ I). lia.
Qed.

Ltac proj := cbn [waiting wake gen sem lck mtx pcs clog set_waiting set_wake set_gen set_sem set_lck set_mtx set_pc emit] in *.
(** goals about every thread u *)
Ltac pw t E := intros u q E'; proj; rewrite (lset_nth _ _ _ _ _ E) in E'; destruct (Nat.eq_dec u t) as [->|N]; [injection E' as <-|].

(** steps that leave the log alone and the sums as stated *)
Record frame (g0 : Z) (s s' : cst) (t : nat) (p p' : pc) : Prop := {
  f_pcs : pcs s' = lset t p' (pcs s);
  f_log : clog s' = clog s;
  f_lck : lck s' = lck s /\ hl p' = hl p \/ lck s = None /\ lck s' = Some t /\ hl p = false /\ hl p' = true
          \/ lck s = Some t /\ lck s' = None /\ hl p = true /\ hl p' = false;
  f_val : val p';
  f_crit : crit s' t p';
  f_keep : wake s' = wake s /\ waiting s' = waiting s \/ hl p = true;
  f_mtx : (mtx s' = mtx s /\ (hm p' = true -> hm p = true \/ mtx s = Some t) /\ (nm p' = true -> nm p = true)) \/ (mtx s = Some t /\ mtx s' = None /\ hm p' = false)
          \/ (mtx s = None /\ mtx s' = Some t /\ nm p' = false);
  f_reg : reg p' = reg p;
  f_g : forall g, locg p' = Some g -> locg p = Some g \/ g = u64 (g0 + grants (clog s) - since t (clog s));
  f_gen : gen s' = u64 (g0 + grants (clog s) - (lsum fa (pcs s) - fa p + fa p'));
  f_wait : waiting s' = waiting s - f199 p + f199 p';
  f_tok : wake s' - wake s = sem s' - sem s - ftok p + ftok p';
  f_sem : 0 <= sem s';
  f_pend : wake s' - fd p + fd p' = wake s }.

Lemma frame_inv : forall g0 s s' t p p', inv g0 s -> nth_error (pcs s) t = Some p -> frame g0 s s' t p p' -> inv g0 s'.
Proof.
  intros g0 s s' t p p' I E F. constructor; rewrite ?(f_pcs _ _ _ _ _ _ F), ?(f_log _ _ _ _ _ _ F).
  - rewrite lset_zlen. apply (i_len _ _ I).
  - pw t E.
    + pose proof (i_lck _ _ I _ _ E) as L. destruct (f_lck _ _ _ _ _ _ F) as [(-> & ->)|[(A & -> & B & ->)|(A & -> & B & ->)]]; [exact L| |]; intuition congruence.
    + pose proof (i_lck _ _ I _ _ E') as L. pose proof (i_lck _ _ I _ _ E) as L0.
      destruct (f_lck _ _ _ _ _ _ F) as [(-> & _)|[(A & -> & B & _)|(A & -> & B & _)]]; [exact L| |].
      * rewrite (free_free _ _ _ _ I A E'). split; congruence.
      * rewrite L, A. split; congruence.
  - intros u L. rewrite (lset_nth _ _ _ _ _ E). destruct (Nat.eq_dec u t) as [->|N]; [eauto|].
    apply (i_lck2 _ _ I). destruct (f_lck _ _ _ _ _ _ F) as [(<- & _)|[(A & B & _)|(A & B & _)]]; congruence.
  - pw t E; [apply (f_val _ _ _ _ _ _ F) | apply (i_val _ _ I _ _ E')].
  - pw t E; [apply (f_crit _ _ _ _ _ _ F)|]. destruct (f_keep _ _ _ _ _ _ F) as [(A & B)|A].
    + pose proof (i_crit _ _ I _ _ E') as C. destruct q; cbn in *; rewrite ?A, ?B, ?(f_log _ _ _ _ _ _ F); exact C.
    + apply crit_free. exact (other_free _ _ _ _ _ _ I E A N E').
  - pw t E.
    + destruct (i_mtx _ _ I _ _ E) as (A & B). destruct (f_mtx _ _ _ _ _ _ F) as [(-> & C' & C)|[(C & -> & D)|(C & -> & D)]].
      * tauto.
      * split; congruence.
      * split; congruence.
    + destruct (i_mtx _ _ I _ _ E') as (A & B). destruct (f_mtx _ _ _ _ _ _ F) as [(-> & _)|[(C & -> & D)|(C & -> & D)]].
      * tauto.
      * split; [intros X; apply A in X; congruence | congruence].
      * split; [intros X; apply A in X; congruence | congruence].
  - pw t E; [rewrite (f_reg _ _ _ _ _ _ F); apply (i_in _ _ I _ _ E) | apply (i_in _ _ I _ _ E')].
  - intros u L. rewrite (lset_nth _ _ _ _ _ E). destruct (Nat.eq_dec u t) as [->|N]; [eauto|]. apply (i_in2 _ _ I). exact L.
  - intros u q g E' G. rewrite (lset_nth _ _ _ _ _ E) in E'. destruct (Nat.eq_dec u t) as [->|N].
    + injection E' as <-. destruct (f_g _ _ _ _ _ _ F _ G) as [X|X]; [apply (i_g _ _ I _ _ _ E X) | exact X].
    + apply (i_g _ _ I _ _ _ E' G).
  - rewrite (f_gen _ _ _ _ _ _ F), (lsum_lset _ _ _ _ _ E). reflexivity.
  - rewrite (lsum_lset _ _ _ _ _ E), (i_wlen _ _ I). unfold fr. rewrite (f_reg _ _ _ _ _ _ F). lia.
  - rewrite (f_wait _ _ _ _ _ _ F), !(lsum_lset _ _ _ _ _ E), (i_wait _ _ I). unfold fr. rewrite (f_reg _ _ _ _ _ _ F). lia.
  - pose proof (f_tok _ _ _ _ _ _ F). pose proof (i_tok _ _ I). rewrite (lsum_lset _ _ _ _ _ E). lia.
  - apply (f_sem _ _ _ _ _ _ F).
  - pose proof (f_pend _ _ _ _ _ _ F). pose proof (i_pend _ _ I). rewrite (lsum_lset _ _ _ _ _ E). lia.
  - apply (i_legal _ _ I).
Qed.

(** a granted notification *)
Definition notify (e : ev) : Prop := is_notify e.
Lemma u64_u64 : forall x y, u64 (u64 x + y) = u64 (x + y).
Proof. intros. unfold u64. apply Zplus_mod_idemp_l. Qed.
Lemma u64_ne : forall x y d, u64 x = u64 y -> x - y = d -> 0 <= d < two64 -> d = 0.
Proof.
  intros x y d H D B. unfold u64 in H. pose proof (Z.div_mod x two64 ltac:(unfold two64; lia)) as A1.
  pose proof (Z.div_mod y two64 ltac:(unfold two64; lia)) as A2. rewrite H in A1. unfold two64 in *. nia.
Qed.
