(** Proofs for C73, part 2: the steps of the writer *)
From Verif Require Import MpliteProof2 MpliteProof6.
From Verif Require Import CBase SeqLib RingBuffer2Model RingBuffer2Proof FixedQueueModel RbMtModel RbMtSpec RbMtProof.
From Verif Require SpscProof SpscProof3.

Section P.
Variables (one c0 : Z).
Hypothesis ONE : 1 <= one < two32.
Hypothesis C0 : 0 <= c0.
Notation inv := (inv one c0).

(** a step that changes only the writer's position *)
Lemma w_move s S k p : inv s S k -> wcur p = wcur (wp s) -> wpend one p = [] -> wpend one (wp s) = [] -> winv one c0 (set_wp s p) S k -> inv (set_wp s p) S k.
Proof.
  intros [] E1 E2 E3 W. split; cbn [csize mem cin cout log wp rp set_wp]; auto; congruence.
Qed.
(** the answer is decided *)
Lemma w_decide s S k c n : inv s S k -> wcur (wp s) = Some c -> wpend one (wp s) = [] -> wok one c -> wbytes one c n = [] -> taken one (at_wcall (log s)) <= k ->
  (let free := csize s - (zlen S - k) in match c with WWrite _ size => n = Z.min size free | WSpace => n = free | WPush _ => n = if one <=? free then 1 else 0 end) -> inv (set_wp s (WRet c n)) S k.
Proof.
  intros I E1 E2 OK E3 K0 A. pose proof I as I0. destruct I. apply w_move; auto. unfold winv. cbn [csize mem cin cout log wp rp set_wp]. split; [exact OK|]. exists k. split; [lia|].
  assert (E : S = wrote one (log s)) by (rewrite i_wrote, E2; apply app_nil_r). rewrite <- E. split; [lia|exact A].
Qed.

Lemma wstep_inv s S k : inv s S k -> exists s' X, wstep one s = Ret s' /\ inv s' (S ++ X) k.
Proof.
  intro I. pose proof (avail_write_eq one c0 s S k I) as AW. pose proof I as I0. destruct I. pose proof (pow2_bound _ i_pow) as B. unfold wstep. unfold winv in i_w. destruct (wp s) as [| |m|c|c n start i|c n] eqn:EW.
  - exists s, []. rewrite app_nil_r. auto.
  - eexists _, []. rewrite app_nil_r. split; [reflexivity|]. apply w_decide; rewrite ?EW; auto. split; [cbn; lia|exact Logic.I].
  - destruct i_w as (OK & K0). eexists _, []. rewrite app_nil_r. split; [reflexivity|]. rewrite AW. destruct (0 =? (csize s - (zlen S - k)) / one) eqn:Q.
    + assert (L : csize s - (zlen S - k) < one). { apply Z.eqb_eq in Q. symmetry in Q. apply Z.div_small_iff in Q; lia. }
      apply w_decide; rewrite ?EW; auto. cbv zeta. destruct (Z.leb_spec one (csize s - (zlen S - k))); [lia|reflexivity].
    + assert (L : one <= csize s - (zlen S - k)). { apply Z.eqb_neq in Q. destruct (Z_lt_dec (csize s - (zlen S - k)) one) as [L|L]; [|lia]. rewrite Z.div_small in Q by lia. lia. }
      apply w_move; rewrite ?EW; auto. unfold winv. cbn [wp set_wp csize log]. split; [exact OK|]. split; [discriminate|]. split; [exact K0|]. intros. exact L.
  - destruct i_w as (OK & NS & K0 & FU). rewrite AW. destruct (wsize one c =? 0) eqn:Q1; [|destruct (csize s - (zlen S - k) =? 0) eqn:Q2]; cbn [orb].
    + eexists _, []. rewrite app_nil_r. split; [reflexivity|]. destruct c as [s0 size| |s0]; [|congruence|cbn in Q1; lia]. cbn in Q1. apply w_decide; rewrite ?EW; auto. cbn [wret]. lia.
    + eexists _, []. rewrite app_nil_r. split; [reflexivity|]. destruct c as [s0 size| |s0]; [|congruence|specialize (FU s0 eq_refl); lia]. apply w_decide; rewrite ?EW; auto. cbn [wret]. destruct OK as (OK & _). cbn in OK. lia.
    + eexists _, []. rewrite app_nil_r. split; [reflexivity|]. rewrite take_min_eq. rewrite i_in, pow2_mask by (auto; apply u32_range). rewrite pow2_mod_u32 by exact i_pow.
      apply w_move; rewrite ?EW; auto. unfold winv. cbn [wp set_wp csize log mem]. destruct OK as (OK1 & OK2). split; [split; assumption|]. split; [exact NS|]. split; [reflexivity|]. split; [lia|]. split; [lia|].
      split; [exists k; split; [lia|]; split; [lia|reflexivity]|]. split; [|intros j Hj; lia]. intros m ->. specialize (FU m eq_refl). cbn [wsize]. lia.
  - destruct i_w as (OK & NS & Hst & Hi & Hn & (k0 & K1 & K2 & K3) & FU & HC). pose proof OK as (OK1 & OK2).
    assert (ns : n <= csize s - (zlen S - k)) by lia.
    destruct (i <? n) eqn:E.
    + assert (SL : wsize one c <= zlen (wsrc c)) by (destruct c; [exact OK2|congruence|exact OK2]).
      destruct (znth_in_range i (wsrc c)) as (b & Hb); [lia|]. rewrite (mload_znth _ _ _ Hb). cbn [bind].
      rewrite Hst, place_mod by (auto; lia).
      assert (0 <= (c0 + zlen S + i) mod csize s < csize s) as Hp by (apply Z.mod_pos_bound; lia).
      destruct (mstore_ok (mem s) ((c0 + zlen S + i) mod csize s) b ltac:(lia)) as (mm & HS & HL & HX & HO). rewrite HS. cbn [bind]. eexists _, []. rewrite app_nil_r. split; [reflexivity|].
      split; cbn [csize mem cin cout log wp rp set_wp set_mem]; auto.
      * lia.
      * intros j Hj. rewrite HO; [auto|]. apply SpscProof.mod_ne; lia.
      * unfold winv. cbn [csize mem cin cout log wp rp set_wp set_mem]. split; [exact OK|]. split; [exact NS|]. split; [auto|]. split; [lia|]. split; [exact Hn|]. split; [exists k0; auto|]. split; [exact FU|].
        intros j Hj. destruct (Z.eq_dec j i) as [->|NE]; [rewrite HX; congruence|]. rewrite HO; [apply HC; lia|]. apply SpscProof.mod_ne; lia.
    + assert (i = n) by lia. subst i.
      assert (WB : wbytes one c (wret one c n) = ztake n (wsrc c)).
      { destruct c as [s0 size| |s0]; [reflexivity|congruence|]. cbn [wbytes wret wsrc]. rewrite (FU s0 eq_refl), Z.eqb_refl. reflexivity. }
      assert (SL : wsize one c <= zlen (wsrc c)) by (destruct c; [exact OK2|congruence|exact OK2]).
      assert (LW : zlen (ztake n (wsrc c)) = n) by (apply zlen_ztake; lia).
      assert (ES : S = wrote one (log s)) by (rewrite i_wrote; apply app_nil_r).
      eexists _, (ztake n (wsrc c)). split; [reflexivity|]. pose proof (i_rng) as (R1 & R2).
      split; cbn [csize mem cin cout log wp rp set_wp set_in]; auto.
      * rewrite i_in, SpscProof.u32_add, zlen_app, LW. f_equal. lia.
      * rewrite zlen_app, LW. lia.
      * intros j Hj. rewrite zlen_app, LW in Hj. destruct (Z_lt_dec j (zlen S)).
        -- rewrite znth_app_l by lia. apply i_dat. lia.
        -- rewrite znth_app_r by lia. rewrite znth_ztake by lia. rewrite <- HC by lia. f_equal. f_equal. lia.
      * unfold winv. cbn [csize mem cin cout log wp rp set_wp set_in]. split; [exact OK|]. exists k0. split; [lia|]. rewrite <- ES. split; [lia|]. destruct c as [s0 size| |s0]; [exact K3|congruence|].
        cbn [wret]. rewrite (FU s0 eq_refl), Z.eqb_refl. cbn [wsize] in K3. rewrite (FU s0 eq_refl) in K3. destruct (Z.leb_spec one (csize s - (zlen S - k0))); [reflexivity|lia].
      * apply (rinv_mono one c0 s); auto; lia.
      * cbn [wpend]. rewrite WB. rewrite <- ES. reflexivity.
  - destruct i_w as (OK & k0 & K1 & K2 & K3). eexists _, []. rewrite app_nil_r. split; [reflexivity|].
    split; cbn [csize mem cin cout log wp rp set_wp emit]; auto.
    + unfold winv. cbn. exact Logic.I.
    + cbn [wpend wrote]. rewrite app_nil_r. exact i_wrote.
    + split; [|exact i_evs]. cbn [event_ok]. split; [exact i_wo|]. exists k0. pose proof (taken_le one c0 ONE s S k I0). split; [lia|]. split; [exact K2|exact K3].
Qed.
Lemma wcall_inv s S k c : inv s S k -> wp s = WIdle -> wok one c -> inv (set_wp (emit s (EWCall c)) (wbegin c)) S k.
Proof.
  intros I E OK. pose proof (taken_le one c0 ONE s S k I) as T. destruct I. rewrite E in *. split; cbn [csize mem cin cout log wp rp set_wp emit]; auto.
  - unfold winv. cbn [csize mem cin cout log wp rp set_wp emit at_wcall]. destruct c as [s0 size| |s0]; cbn [wbegin]; [|lia|split; [exact OK|lia]]. split; [exact OK|]. split; [discriminate|]. split; [lia|discriminate].
  - rewrite i_wrote at 1. destruct c; reflexivity.
  - destruct c; reflexivity.
  - split; [exact Logic.I|exact i_evs].
Qed.
End P.
