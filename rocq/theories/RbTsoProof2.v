(** Proofs for C80, part 2: the reader, flushes, barriers *)
From Verif Require Import MpliteProof2 MpliteProof6.
From Verif Require Import CBase SeqLib RingBuffer2Model RingBuffer2Proof FixedQueueModel RbMtModel RbMtSpec RbMtProof RbTsoModel RbTsoSpec RbTsoProof.
From Verif Require SpscProof SpscProof3.
Section P.
Variables (one c0 : Z).
Hypothesis ONE : 1 <= one < two32.
Hypothesis C0 : 0 <= c0.
Notation tinv := (tinv one c0).
Lemma twcall_inv s S k p q c : tinv s S k p q -> t_wp s = WIdle -> wok one c -> tinv (tset_wp (temit s (E (EWCall c))) (wbegin c)) S k p q.
Proof.
  intros I EE OK. destruct I. rewrite EE in *. split; cbn [t_size t_mem t_in t_out t_log t_wp t_rp t_wbuf t_rbuf tset_wp temit]; auto.
  - eapply good_impl; [apply Z.le_refl| |exact v_wb]. intros m p0 (T1 & T2 & T3). split; [exact T1|]. split; [exact T2|]. destruct c; exact Logic.I.
  - unfold twinv. cbn [t_size t_mem t_in t_out t_log t_wp t_rp tset_wp temit wcall_at]. destruct c as [s0 len| |s0]; cbn [wbegin]; [|exact v_rs|split; [exact OK|exact v_rs]]. split; [exact OK|]. split; [discriminate|]. split; [exact v_rs|discriminate].
  - cbn [plain flat_map app wrote]. rewrite v_wrote at 1. destruct c; reflexivity.
  - destruct c; reflexivity.
  - split; [exact Logic.I|exact v_evs].
Qed.
Lemma tr_move s S k p q x : tinv s S k p q -> rcur x = rcur (t_rp s) -> rpend one x = 0 -> rpend one (t_rp s) = 0 -> trinv one c0 (tset_rp s x) S k p -> tinv (tset_rp s x) S k p q.
Proof.
  intros [] E1 E2 E3 W. split; cbn [t_size t_mem t_in t_out t_log t_wp t_rp t_wbuf t_rbuf tset_rp]; auto; try congruence.
Qed.
Lemma tr_decide s S k p q c n t' : tinv s S k p q -> rcur (t_rp s) = Some c -> rpend one (t_rp s) = 0 -> rok one c -> rbytes one c n = 0 -> zlen (wrote one (plain (wsync_at (rcall_at (t_log s))))) <= p ->
  answer one s S c n t' (p - k) -> tinv (tset_rp s (RRet c n t')) S k p q.
Proof.
  intros I E1 E2 OK E3 K0 A. pose proof I as I0. destruct I. apply tr_move; auto. unfold trinv. cbn [t_size t_mem t_in t_out t_log t_wp t_rp tset_rp]. split; [exact OK|]. exists p. split; [lia|].
  rewrite E2, Z.add_0_r in v_taken. rewrite <- v_taken. split; [lia|exact A].
Qed.
Lemma trstep_inv s S k p q : tinv s S k p q -> exists s' k', trstep one s = Ret s' /\ tinv s' S k' p q.
Proof.
  intro I. pose proof (stored_eq _ _ _ _ _ _ _ I) as AR. pose proof (own_out_eq _ _ _ _ _ _ _ I) as OR. pose proof I as I0. destruct I. pose proof (pow2_bound _ v_pow) as B. unfold trstep. unfold trinv in v_r. destruct (t_rp s) as [| |t|c|c n start i t|c n t'] eqn:ER.
  - exists s, k. auto.
  - eexists _, k. split; [reflexivity|]. apply tr_decide; rewrite ?ER; auto; try (split; [cbn; lia|exact Logic.I]). split; [exact AR|reflexivity].
  - destruct v_r as (OK & K0). eexists _, k. split; [reflexivity|]. rewrite AR. destruct (0 =? (p - k) / one) eqn:Q.
    + assert (L : p - k < one). { apply Z.eqb_eq in Q. symmetry in Q. apply Z.div_small_iff in Q; lia. }
      apply tr_decide; rewrite ?ER; auto. unfold answer. destruct (Z.leb_spec one (p - k)); [lia|auto].
    + assert (L : one <= p - k). { apply Z.eqb_neq in Q. destruct (Z_lt_dec (p - k) one) as [L|L]; [|lia]. rewrite Z.div_small in Q by lia. lia. }
      apply tr_move; rewrite ?ER; auto. unfold trinv. cbn [t_rp tset_rp t_size t_log]. split; [exact OK|]. split; [discriminate|]. split; [exact K0|]. intros. exact L.
  - destruct v_r as (OK & NS & K0 & FU). rewrite AR.
    assert (ZERO : rsize one c = 0 \/ p - k = 0 -> tinv (tset_rp s (RRet c (rret one c 0) (rtgt c))) S k p q).
    { intro Z0. destruct OK as (OK1 & OK2). assert (N0 : forall t, tnext one s S 0 ++ zdrop 0 t = t) by (intro t; unfold tnext; rewrite ztake_0, zdrop_0; reflexivity).
      destruct c as [t size|[t|] size|size| |t]; [| | | |congruence|].
      1-4: cbn [rsize] in *; apply tr_decide; rewrite ?ER; auto; [split; assumption|unfold answer; cbn [rret rtgt]; cbv zeta; rewrite ?N0; split; [lia|reflexivity]].
      specialize (FU t eq_refl). cbn [rsize] in Z0. lia. }
    destruct (rsize one c =? 0) eqn:Q1; [|destruct (p - k =? 0) eqn:Q2]; cbn [orb].
    + eexists _, k. split; [reflexivity|]. apply ZERO. lia.
    + eexists _, k. split; [reflexivity|]. apply ZERO. lia.
    + eexists _, k. split; [reflexivity|]. rewrite take_min_eq. rewrite OR, pow2_mask by (auto; apply u32_range). rewrite pow2_mod_u32 by exact v_pow.
      apply tr_move; rewrite ?ER; auto. unfold trinv. cbn [t_rp tset_rp t_size t_log t_mem]. destruct OK as (OK1 & OK2). split; [split; assumption|]. split; [exact NS|]. split; [reflexivity|].
      split; [destruct (rtgt c); lia|]. split; [lia|]. split; [exists p; split; [lia|]; split; [lia|reflexivity]|]. split; [intros t ->; specialize (FU t eq_refl); cbn [rsize]; lia|].
      destruct (rtgt c); reflexivity.
  - destruct v_r as (OK & NS & Hst & Hi & Hn & (k1 & K1 & K2 & K3) & FU & HT). pose proof OK as (OK1 & OK2). pose proof v_rng as (R1 & R2 & R3).
    assert (ns : n <= p - k) by lia.
    destruct (i <? n) eqn:EI.
    + destruct (rtgt c) as [t0|] eqn:ET; [|lia]. assert (TL : rsize one c <= zlen t0) by exact OK2.
      rewrite Hst, place_mod by (auto; lia). rewrite <- Z.add_assoc. pose proof (v_dat (k + i) ltac:(lia)) as HD. destruct (znth_in_range (k + i) S) as (b & Hb); [lia|]. rewrite Hb in HD. rewrite (mload_znth _ _ _ HD). cbn [bind].
      destruct (SpscProof3.fill_step (zdrop k S) t0 i b) as (t1 & HS & ->); [rewrite zlen_zdrop by lia; lia|lia|rewrite znth_zdrop by lia; exact Hb|]. rewrite HT, HS. cbn [bind]. eexists _, k. split; [reflexivity|].
      apply tr_move; rewrite ?ER; auto. unfold trinv. cbn [t_size t_mem t_in t_out t_log t_wp t_rp tset_rp]. split; [exact OK|]. split; [exact NS|]. split; [auto|]. split; [lia|]. split; [exact Hn|]. split; [exists k1; auto|]. split; [exact FU|]. rewrite ET. reflexivity.
    + assert (i = n) by lia. subst i. assert (EK : k = taken one (plain (t_log s))) by (rewrite v_taken; cbn [rpend]; lia).
      assert (RP : rbytes one c (rret one c n) = if is_peek c then 0 else n).
      { destruct c as [t0 size|[t0|] size|size| |t0]; try reflexivity; [congruence|]. cbn [rbytes rret is_peek]. rewrite (FU t0 eq_refl), Z.eqb_refl. reflexivity. }
      assert (RI : forall s', t_log s' = t_log s -> t_size s' = t_size s -> t_rp s' = RRet c (rret one c n) (match rtgt c with Some _ => Some t | None => None end) -> trinv one c0 s' S (k + rbytes one c (rret one c n)) p).
      { intros s' L1 L2 L3. unfold trinv. rewrite L3, L1, L2. split; [exact OK|]. exists k1. split; [lia|]. rewrite <- EK. split; [lia|]. unfold answer, tnext. rewrite L1, <- EK.
        destruct c as [t0 size|[t0|] size|size| |t0]; cbn [rtgt rret rsize] in *; try congruence.
        - split; [exact K3|]. rewrite HT. reflexivity.
        - split; [exact K3|]. rewrite HT. reflexivity.
        - auto.
        - auto.
        - pose proof (FU t0 eq_refl) as EN. replace (n =? one) with true by (symmetry; apply Z.eqb_eq; exact EN). destruct (Z.leb_spec one (k1 - k)); [|lia]. split; [reflexivity|]. rewrite HT, EN. reflexivity. }
      destruct (is_peek c) eqn:PK.
      * eexists _, k. split; [reflexivity|]. apply tr_move; rewrite ?ER; auto. rewrite RP, Z.add_0_r in RI. apply RI; reflexivity.
      * rewrite RP in RI. exists (tset_rp (r_store s (u32 (own_out s + n))) (RRet c (rret one c n) (match rtgt c with Some _ => Some t | None => None end))), (k + n). split; [reflexivity|].
        assert (ADV : u32 (own_out s + n) = u32 (c0 + (k + n))) by (rewrite OR, SpscProof.u32_add; f_equal; lia).
        split; cbn [t_size t_mem t_in t_out t_log t_wp t_rp t_wbuf t_rbuf tset_rp r_store tset_rbuf]; auto.
        -- lia.
        -- intros j Hj. apply v_dat. lia.
        -- rewrite ADV. apply (goodr_app c0 k q (t_rbuf s) (k + n)); [lia|exact v_rb].
        -- cbn [rpend]. rewrite RP. lia.
  - destruct v_r as (OK & k1 & K1 & K2 & K3). pose proof (trret_le _ _ ONE s S k p q c n t' I0 ER) as RL. pose proof v_rng as (R1 & R2 & R3). eexists _, k. split; [reflexivity|].
    split; cbn [t_size t_mem t_in t_out t_log t_wp t_rp t_wbuf t_rbuf tset_rp temit]; auto.
    + unfold trinv. cbn. exact Logic.I.
    + cbn [plain flat_map app rpend taken]. rewrite Z.add_0_r. exact v_taken.
    + change (0 <= taken one (plain (t_log s)) + rbytes one c n). lia.
    + split; [|exact v_evs]. cbn [tev_ok]. split; [exact v_ro|]. exists k1. destruct (tprefix_offered _ _ s S k p q I0) as (X & EX). split; [rewrite EX, zlen_app; pose proof (zlen_nonneg X); lia|]. split; [exact K2|].
      unfold answer in K3. destruct OK as (OK1 & OK2). destruct c as [t0 size|[t0|] size|size| |t0]; cbn [rsize] in OK1; auto.
      * destruct K3 as (N & T). split; [exact N|]. rewrite (toffered_next one c0 s S k p q) by (auto; lia). exact T.
      * destruct K3 as (N & T). split; [exact N|]. rewrite (toffered_next one c0 s S k p q) by (auto; lia). exact T.
      * destruct (Z.leb_spec one (k1 - taken one (plain (t_log s)))); [|exact K3]. rewrite (toffered_next one c0 s S k p q) by (auto; lia). exact K3.
Qed.
Lemma trcall_inv s S k p q c : tinv s S k p q -> t_rp s = RIdle -> rok one c -> tinv (tset_rp (temit s (E (ERCall c))) (rbegin c)) S k p q.
Proof.
  intros I EE OK. destruct I. rewrite EE in *.
  split; cbn [t_size t_mem t_in t_out t_log t_wp t_rp t_wbuf t_rbuf tset_rp temit]; auto.
  - unfold trinv. cbn [t_size t_mem t_in t_out t_log t_wp t_rp tset_rp temit rcall_at]. destruct c as [t0 len|t0 len|len| |t0]; cbn [rbegin]; try (split; [exact OK|split; [discriminate|split; [exact v_ws|discriminate]]]); [exact v_ws|split; [exact OK|exact v_ws]].
  - cbn [plain flat_map app taken]. fold (plain (t_log s)). rewrite v_taken. destruct c; reflexivity.
  - destruct c; reflexivity.
  - split; [exact Logic.I|exact v_evs].
Qed.
(** ** stores reach memory *)
Lemma twflush_inv s S k p q e b : tinv s S k p q -> t_wbuf s = e :: b -> exists s' p', commit (tset_wbuf s b) e = Ret s' /\ tinv s' S k p' q.
Proof.
  intros I EB. pose proof I as I0. destruct I. rewrite EB in v_wb. pose proof v_rng as (R1 & R2 & R3). destruct e as [a v|v]; cbn [good commit] in *.
  - destruct v_wb as (x & m' & -> & A & B & C). cbn [t_mem tset_wbuf]. rewrite B. cbn [bind]. eexists _, p. split; [reflexivity|].
    assert (0 <= (c0 + x) mod t_size s < t_size s) as Hp by (apply Z.mod_pos_bound; lia).
    destruct (mstore_ok (t_mem s) ((c0 + x) mod t_size s) v ltac:(lia)) as (mm & HS & HL & HX & HO). rewrite B in HS. injection HS as <-.
    split; cbn [t_size t_mem t_in t_out t_log t_wp t_rp t_wbuf t_rbuf tset_wbuf tset_mem]; auto.
    + lia.
    + intros j Hj. rewrite HO; [auto|]. apply SpscProof.mod_ne; lia.
  - destruct v_wb as (p' & A & -> & B & C). eexists _, p'. split; [reflexivity|].
    split; cbn [t_size t_mem t_in t_out t_log t_wp t_rp t_wbuf t_rbuf tset_wbuf tset_in]; auto.
    + lia.
    + intros j Hj. destruct (Z_lt_dec j p); [apply v_dat; lia|apply B; lia].
    + rewrite <- (app_nil_r S). apply (trinv_mono _ _ s _ S [] k p p'); auto; lia.
    + lia.
Qed.
Lemma trflush_inv s S k p q x b : tinv s S k p q -> t_rbuf s = x :: b -> exists q', tinv (tset_rbuf (tset_out s x) b) S k p q'.
Proof.
  intros I EB. pose proof I as I0. destruct I. rewrite EB in v_rb. pose proof v_rng as (R1 & R2 & R3). cbn [goodr] in v_rb. destruct v_rb as (q' & A & -> & C). exists q'.
  split; cbn [t_size t_mem t_in t_out t_log t_wp t_rp t_wbuf t_rbuf tset_rbuf tset_out]; auto.
  - lia.
  - eapply good_impl; [|apply tail_ext; reflexivity|exact v_wb]. lia.
  - apply (twinv_mono _ _ s _ S q q'); auto. lia.
  - lia.
Qed.
Lemma twsync_inv s S k p q : tinv s S k p q -> t_wp s = WIdle -> t_wbuf s = [] -> tinv (temit s WSync) S k p q.
Proof.
  intros I EW EB. destruct I. rewrite EB in v_wb. cbn [good] in v_wb. pose proof (tail_len _ _ _ _ _ v_wb) as EP.
  split; cbn [t_size t_mem t_in t_out t_log t_wp t_rp t_wbuf t_rbuf temit]; auto.
  - rewrite EB. exact v_wb.
  - cbn [wsync_at]. rewrite EW in v_wrote. cbn [wpend] in v_wrote. rewrite app_nil_r in v_wrote. rewrite EP, v_wrote. apply Z.le_refl.
  - split; [exact Logic.I|exact v_evs].
Qed.
Lemma trsync_inv s S k p q : tinv s S k p q -> t_rp s = RIdle -> t_rbuf s = [] -> tinv (temit s RSync) S k p q.
Proof.
  intros I EW EB. destruct I. rewrite EB in v_rb. cbn [goodr] in v_rb.
  split; cbn [t_size t_mem t_in t_out t_log t_wp t_rp t_wbuf t_rbuf temit]; auto.
  - rewrite EB. exact v_rb.
  - cbn [rsync_at]. rewrite EW in v_taken. cbn [rpend] in v_taken. lia.
  - split; [exact Logic.I|exact v_evs].
Qed.
Lemma tstep_inv s S k p q s' : tinv s S k p q -> tstep one false s s' -> exists S' k' p' q', tinv s' S' k' p' q'.
Proof.
  intros I H. destruct H as [s s' H|s s' H|s c EE OK|s c EE OK|s s' a e b EB O SP C|s x b EB|s EW EB|s EW EB].
  - destruct (twstep_inv one c0 ONE C0 s S k p q I) as (s1 & X & H1 & I1). rewrite H in H1. injection H1 as <-. eauto.
  - destruct (trstep_inv s S k p q I) as (s1 & X & H1 & I1). rewrite H in H1. injection H1 as <-. eauto.
  - exists S, k, p, q. apply twcall_inv; auto.
  - exists S, k, p, q. apply trcall_inv; auto.
  - destruct O as [O| ->]; [discriminate|]. cbn [app] in *. destruct (twflush_inv s S k p q e b I EB) as (s1 & p' & H1 & I1). rewrite C in H1. injection H1 as <-. eauto.
  - destruct (trflush_inv s S k p q x b I EB) as (q' & I1). eauto.
  - exists S, k, p, q. apply twsync_inv; auto.
  - exists S, k, p, q. apply trsync_inv; auto.
Qed.
End P.
