(** Proofs for C73, part 3: the steps of the reader, all schedules *)
From Verif Require Import MpliteProof2 MpliteProof6.
From Verif Require Import CBase SeqLib RingBuffer2Model RingBuffer2Proof FixedQueueModel RbMtModel RbMtSpec RbMtProof RbMtProof2.
From Verif Require SpscProof SpscProof3.

Section P.
Variables (one c0 : Z).
Hypothesis ONE : 1 <= one < two32.
Hypothesis C0 : 0 <= c0.
Notation inv := (inv one c0).

Lemma r_move s S k p : inv s S k -> rcur p = rcur (rp s) -> rpend one p = 0 -> rpend one (rp s) = 0 -> rinv one c0 (set_rp s p) S k -> inv (set_rp s p) S k.
Proof. intros [] E1 E2 E3 W. split; cbn [csize mem cin cout log wp rp set_rp]; auto; congruence. Qed.
(** the answer is decided, and nothing is taken *)
Lemma r_decide s S k c n t' : inv s S k -> rcur (rp s) = Some c -> rpend one (rp s) = 0 -> rok one c -> rbytes one c n = 0 -> zlen (wrote one (at_rcall (log s))) <= zlen S ->
  (let stored := zlen S - k in
   match c with
   | RRead t size => n = Z.min size stored /\ t' = Some (next one s S n ++ zdrop n t)
   | RPeek (Some t) size => n = Z.min size stored /\ t' = Some (next one s S n ++ zdrop n t)
   | RPeek None size => n = Z.min size stored /\ t' = None
   | RDiscard size => n = Z.min size stored /\ t' = None
   | RAvail => n = stored /\ t' = None
   | RPop t => if one <=? stored then n = 1 /\ t' = Some (next one s S one ++ zdrop one t) else n = 0 /\ t' = Some t
   end) -> inv (set_rp s (RRet c n t')) S k.
Proof.
  intros I E1 E2 OK E3 K0 A. pose proof I as I0. destruct I. apply r_move; auto. unfold rinv. cbn [csize mem cin cout log wp rp set_rp]. split; [exact OK|]. exists (zlen S). split; [lia|].
  rewrite E2, Z.add_0_r in i_taken. rewrite <- i_taken. split; [lia|exact A].
Qed.

Lemma rstep_inv s S k : inv s S k -> exists s' k', rstep one s = Ret s' /\ inv s' S k'.
Proof.
  intro I. pose proof (avail_read_eq one c0 s S k I) as AR. pose proof I as I0. destruct I. pose proof (pow2_bound _ i_pow) as B. unfold rstep. unfold rinv in i_r. destruct (rp s) as [| |t|c|c n start i t|c n t'] eqn:ER.
  - exists s, k. auto.
  - eexists _, k. split; [reflexivity|]. apply r_decide; rewrite ?ER; auto. split; [cbn; lia|exact Logic.I].
  - destruct i_r as (OK & K0). eexists _, k. split; [reflexivity|]. rewrite AR. destruct (0 =? (zlen S - k) / one) eqn:Q.
    + assert (L : zlen S - k < one). { apply Z.eqb_eq in Q. symmetry in Q. apply Z.div_small_iff in Q; lia. }
      apply r_decide; rewrite ?ER; auto. cbv zeta. destruct (Z.leb_spec one (zlen S - k)); [lia|auto].
    + assert (L : one <= zlen S - k). { apply Z.eqb_neq in Q. destruct (Z_lt_dec (zlen S - k) one) as [L|L]; [|lia]. rewrite Z.div_small in Q by lia. lia. }
      apply r_move; rewrite ?ER; auto. unfold rinv. cbn [rp set_rp csize log]. split; [exact OK|]. split; [discriminate|]. split; [exact K0|]. intros. exact L.
  - destruct i_r as (OK & NS & K0 & FU). rewrite AR.
    assert (ZERO : rsize one c = 0 \/ zlen S - k = 0 -> inv (set_rp s (RRet c (rret one c 0) (rtgt c))) S k).
    { intro Z0. destruct OK as (OK1 & OK2). assert (N0 : forall t, next one s S 0 ++ zdrop 0 t = t) by (intro t; unfold next; rewrite ztake_0, zdrop_0; reflexivity).
      destruct c as [t size|[t|] size|size| |t]; [| | | |congruence|].
      1-4: cbn [rsize] in *; apply r_decide; rewrite ?ER; auto; [split; assumption|cbn [rret rtgt]; cbv zeta; rewrite ?N0; split; [lia|reflexivity]].
      specialize (FU t eq_refl). cbn [rsize] in Z0. lia. }
    destruct (rsize one c =? 0) eqn:Q1; [|destruct (zlen S - k =? 0) eqn:Q2]; cbn [orb].
    + eexists _, k. split; [reflexivity|]. apply ZERO. lia.
    + eexists _, k. split; [reflexivity|]. apply ZERO. lia.
    + eexists _, k. split; [reflexivity|]. rewrite take_min_eq. rewrite i_out, pow2_mask by (auto; apply u32_range). rewrite pow2_mod_u32 by exact i_pow.
      apply r_move; rewrite ?ER; auto. unfold rinv. cbn [rp set_rp csize log mem]. destruct OK as (OK1 & OK2). split; [split; assumption|]. split; [exact NS|]. split; [reflexivity|].
      split; [destruct (rtgt c); lia|]. split; [lia|]. split; [exists (zlen S); split; [lia|]; split; [lia|reflexivity]|]. split; [intros t ->; specialize (FU t eq_refl); cbn [rsize]; lia|].
      destruct (rtgt c); reflexivity.
  - destruct i_r as (OK & NS & Hst & Hi & Hn & (k1 & K1 & K2 & K3) & FU & HT). pose proof OK as (OK1 & OK2). pose proof i_rng as (R1 & R2).
    assert (ns : n <= zlen S - k) by lia.
    destruct (i <? n) eqn:E.
    + destruct (rtgt c) as [t0|] eqn:ET; [|lia]. assert (TL : rsize one c <= zlen t0) by exact OK2.
      rewrite Hst, place_mod by (auto; lia). rewrite <- Z.add_assoc. pose proof (i_dat (k + i) ltac:(lia)) as HD. destruct (znth_in_range (k + i) S) as (b & Hb); [lia|]. rewrite Hb in HD. rewrite (mload_znth _ _ _ HD). cbn [bind].
      destruct (SpscProof3.fill_step (zdrop k S) t0 i b) as (t1 & HS & ->); [rewrite zlen_zdrop by lia; lia|lia|rewrite znth_zdrop by lia; exact Hb|]. rewrite HT, HS. cbn [bind]. eexists _, k. split; [reflexivity|].
      apply r_move; rewrite ?ER; auto. unfold rinv. cbn [csize mem cin cout log wp rp set_rp]. split; [exact OK|]. split; [exact NS|]. split; [auto|]. split; [lia|]. split; [exact Hn|]. split; [exists k1; auto|]. split; [exact FU|]. rewrite ET. reflexivity.
    + assert (i = n) by lia. subst i. assert (EK : k = taken one (log s)) by (rewrite i_taken; cbn [rpend]; lia).
      assert (NK : forall t0, rtgt c = Some t0 -> t = next one s S n ++ zdrop n t0) by (intros t0 ET; rewrite ET in HT; unfold next; rewrite <- EK; exact HT).
      assert (RP : rbytes one c (rret one c n) = if is_peek c then 0 else n).
      { destruct c as [t0 size|[t0|] size|size| |t0]; try reflexivity; [congruence|]. cbn [rbytes rret is_peek]. rewrite (FU t0 eq_refl), Z.eqb_refl. reflexivity. }
      assert (RI : rinv one c0 (set_rp s (RRet c (rret one c n) (match rtgt c with Some _ => Some t | None => None end))) S k).
      { unfold rinv. cbn [csize mem cin cout log wp rp set_rp]. split; [exact OK|]. exists k1. split; [lia|]. rewrite <- EK. split; [lia|]. unfold next in *. cbn [log set_rp] in *.
        destruct c as [t0 size|[t0|] size|size| |t0]; cbn [rtgt rret rsize] in *; try congruence.
        - split; [exact K3|]. rewrite (NK t0 eq_refl). reflexivity.
        - split; [exact K3|]. rewrite (NK t0 eq_refl). reflexivity.
        - auto.
        - auto.
        - pose proof (FU t0 eq_refl) as EN. replace (n =? one) with true by (symmetry; apply Z.eqb_eq; exact EN). destruct (Z.leb_spec one (k1 - k)); [|lia]. split; [reflexivity|]. rewrite (NK t0 eq_refl), EN. reflexivity. }
      destruct (is_peek c) eqn:PK.
      * eexists _, k. split; [reflexivity|]. apply r_move; rewrite ?ER; auto.
      * exists (set_rp (set_out s (u32 (cout s + n))) (RRet c (rret one c n) (match rtgt c with Some _ => Some t | None => None end))), (k + n). split; [reflexivity|].
        split; cbn [csize mem cin cout log wp rp set_rp set_out]; auto.
        -- rewrite i_out, SpscProof.u32_add. f_equal. lia.
        -- lia.
        -- intros j Hj. apply i_dat. lia.
        -- apply (winv_mono one c0 s _ S k); auto. lia.
        -- cbn [rpend]. rewrite RP. lia.
  - destruct i_r as (OK & k1 & K1 & K2 & K3). pose proof (rret_le one c0 ONE s S k c n t' I0 ER) as RL. pose proof i_rng as (R1 & R2). eexists _, k. split; [reflexivity|].
    split; cbn [csize mem cin cout log wp rp set_rp emit]; auto.
    + unfold rinv. cbn. exact Logic.I.
    + cbn [rpend taken]. rewrite Z.add_0_r. exact i_taken.
    + cbn [taken]. lia.
    + split; [|exact i_evs]. cbn [event_ok]. split; [exact i_ro|]. exists k1. destruct (prefix_offered one c0 s S k I0) as (X & EX). split; [rewrite EX, zlen_app; pose proof (zlen_nonneg X); lia|]. split; [exact K2|]. cbv zeta in K2.
      destruct OK as (OK1 & OK2). destruct c as [t0 size|[t0|] size|size| |t0]; cbn [rsize] in OK1; auto.
      * destruct K3 as (N & T). split; [exact N|]. rewrite (offered_next one c0 s S k) by (auto; lia). exact T.
      * destruct K3 as (N & T). split; [exact N|]. rewrite (offered_next one c0 s S k) by (auto; lia). exact T.
      * destruct (Z.leb_spec one (k1 - taken one (log s))); [|exact K3]. rewrite (offered_next one c0 s S k) by (auto; lia). exact K3.
Qed.
Lemma rcall_inv s S k c : inv s S k -> rp s = RIdle -> rok one c -> inv (set_rp (emit s (ERCall c)) (rbegin c)) S k.
Proof.
  intros I E OK. pose proof I as I0. destruct I. rewrite E in *.
  assert (W : zlen (wrote one (log s)) <= zlen S) by (rewrite i_wrote, zlen_app; pose proof (zlen_nonneg (wpend one (wp s))); lia).
  split; cbn [csize mem cin cout log wp rp set_rp emit]; auto.
  - unfold rinv. cbn [csize mem cin cout log wp rp set_rp emit at_rcall]. destruct c as [t0 size|t0 size|size| |t0]; cbn [rbegin]; try (split; [exact OK|split; [discriminate|split; [exact W|discriminate]]]); [exact W|split; [exact OK|exact W]].
  - cbn [taken]. rewrite i_taken. destruct c; reflexivity.
  - destruct c; reflexivity.
  - split; [exact Logic.I|exact i_evs].
Qed.
Lemma step_inv s S k s' : inv s S k -> step one s s' -> exists S' k', inv s' S' k'.
Proof.
  intros I H. destruct H as [s s' H|s s' H|s c E OK|s c E OK].
  - destruct (wstep_inv one c0 ONE C0 s S k I) as (s1 & X & H1 & I1). rewrite H in H1. injection H1 as <-. eauto.
  - destruct (rstep_inv s S k I) as (s1 & X & H1 & I1). rewrite H in H1. injection H1 as <-. eauto.
  - exists S, k. apply wcall_inv; auto.
  - exists S, k. apply rcall_inv; auto.
Qed.
End P.
Lemma reach_inv one h s : 1 <= one < two32 -> rb_inv h -> rb_in h = rb_out h -> reach one h s -> exists S k, inv one (rb_in h) s S k.
Proof.
  intros ONE (P & B & I & O & _) E H. induction H as [|s s' R IH ST].
  - exists [], 0. split; cbn [csize mem cin cout log wp rp boot]; auto; try exact Logic.I.
    + change (zlen (@nil Z)) with 0. rewrite Z.add_0_r, u32_small; auto.
    + rewrite Z.add_0_r, u32_small; auto; lia.
    + change (zlen (@nil Z)) with 0. pose proof (pow2_bound _ P). lia.
    + intros j Hj. change (zlen (@nil Z)) with 0 in Hj. lia.
    + cbn. lia.
  - destruct IH as (S & k & IH). eapply step_inv; [exact ONE|lia|exact IH|exact ST].
Qed.
