From Verif Require Import CBase SeqLib HashmapProof MpliteModel MpliteSpec MpliteProof MpliteProof2.

(** ** ways of keeping the invariant *)
Lemma stats_inv h top lf fl a b c d e f g i : inv h top lf fl -> inv (set_stats h a b c d e f g i) top lf fl.
Proof. intro V. destruct V. constructor; assumption. Qed.
Lemma ctrl_inv h top lf fl c : inv h top lf fl -> zlen c = mp_n h ->
  (forall i L s, s <> Held -> lf i = Some (L, s) -> znth i c = znth i (mp_ctrl h)) -> inv (set_ctrl h c) top lf fl.
Proof.
  intros V LC E. destruct V. constructor; try assumption.
  - intros i L A. cbn [mp_ctrl set_ctrl]. rewrite (E i L Free); [auto|discriminate|exact A].
  - intros i L A. cbn [mp_ctrl set_ctrl]. rewrite (E i L Live); [auto|discriminate|exact A].
Qed.
Lemma store_ctrl_ok h top lf fl i v : inv h top lf fl -> 0 <= i < mp_n h -> (forall L s, lf i = Some (L, s) -> s = Held) ->
  exists c, store_ctrl h i v = Ret (set_ctrl h c) /\ inv (set_ctrl h c) top lf fl /\ znth i c = Some v /\ (forall j, j <> i -> znth j c = znth j (mp_ctrl h)).
Proof.
  intros V RI H. unfold store_ctrl. destruct (mstore_ok (mp_ctrl h) i v ltac:(rewrite (v_ctl _ _ _ _ V); lia)) as (c & E & L & X & O). rewrite E. cbn [bind].
  exists c. split; [reflexivity|]. split; [|split; assumption]. apply ctrl_inv; [exact V|rewrite L; apply V|].
  intros j M s NS A. apply O. intros ->. apply NS. eapply H; exact A.
Qed.
Lemma retile h top lf fl top' lf' : inv h top lf fl -> 0 <= top' <= mp_n h -> tiling top' lf' ->
  (forall j L s, s <> Held -> (lf' j = Some (L, s) <-> lf j = Some (L, s))) -> inv h top' lf' fl.
Proof.
  intros V RT T E. pose proof V as W. destruct V. constructor; try assumption.
  - intros i L A. apply (E i L Free) in A; [auto|discriminate].
  - intros i L A. apply (E i L Live) in A; [auto|discriminate].
  - intros L i. rewrite (E i L Free) by discriminate. apply v_in.
  - intros i L A B. apply (E _ L Free) in A; [|discriminate]. apply (E _ L Free) in B; [|discriminate]. eauto.
Qed.
Lemma unlive h top lf fl i L : inv h top lf fl -> lf i = Some (L, Live) -> inv h top (upd lf i (Some (L, Held))) fl.
Proof.
  intros V A. pose proof V as W. destruct V. constructor; try assumption.
  - eapply status_tiling; eassumption.
  - intros j M H. upd_case j i; [discriminate|auto].
  - intros j M H. upd_case j i; [discriminate|auto].
  - intros M j. upd_case j i; [|apply v_in]. rewrite v_in, A. split; discriminate.
  - intros j M H1 H2. upd_case j i; [discriminate|]. destruct (Z.eq_dec (buddy M j) i) as [E|N']; [rewrite E, upd_eq in H2; discriminate|].
    rewrite upd_ne in H2 by exact N'. exact (v_co _ _ H1 H2).
Qed.
Lemma relive h top lf fl i L : inv h top lf fl -> lf i = Some (L, Held) -> znth i (mp_ctrl h) = Some L -> inv h top (upd lf i (Some (L, Live))) fl.
Proof.
  intros V A C. pose proof V as W. destruct V. constructor; try assumption.
  - eapply status_tiling; eassumption.
  - intros j M H. upd_case j i; [discriminate|auto].
  - intros j M H. upd_case j i; [injection H as <-; exact C|auto].
  - intros M j. upd_case j i; [|apply v_in]. rewrite v_in, A. split; discriminate.
  - intros j M H1 H2. upd_case j i; [discriminate|]. destruct (Z.eq_dec (buddy M j) i) as [E|N']; [rewrite E, upd_eq in H2; discriminate|].
    rewrite upd_ne in H2 by exact N'. exact (v_co _ _ H1 H2).
Qed.
(** writes that meet no free block *)
Lemma mem_inv h top lf fl m : inv h top lf fl -> zlen m = zlen (mp_mem h) ->
  (forall i L a, lf i = Some (L, Free) -> i * mp_sz h <= a < (i + 1) * mp_sz h -> znth a m = znth a (mp_mem h)) -> inv (set_mem h m) top lf fl.
Proof.
  intros V LM E. pose proof V as W. destruct V. constructor; try assumption.
  - cbn [mp_mem set_mem mp_n mp_sz]. lia.
  - intro L. apply (dseg_ext (get_next h) (get_prev h)); [|apply v_dll]. intros i I. apply v_in in I. unfold get_next, get_prev. cbn [mp_mem set_mem mp_sz].
    split; apply load_ext; [exact LM| |exact LM|]; intros k K; apply (E i L); auto; lia.
Qed.

(** what the operations keep *)
Definition stats (h : mp) := (mp_nalloc h, mp_total h, mp_excess h, mp_out h, mp_count h, mp_maxout h, mp_maxcount h, mp_maxreq h).
Definition keeps (h : mp) (lf : leaves) (h' : mp) (lf' : leaves) : Prop :=
  mp_sz h' = mp_sz h /\ mp_n h' = mp_n h /\ stats h' = stats h /\ (forall j M, lf' j = Some (M, Live) <-> lf j = Some (M, Live)) /\ frame h h' lf.
Lemma keeps_refl h lf : keeps h lf h lf.
Proof. repeat split; auto. Qed.
Lemma keeps_trans h lf h1 lf1 h2 lf2 : keeps h lf h1 lf1 -> keeps h1 lf1 h2 lf2 -> keeps h lf h2 lf2.
Proof.
  intros (A1 & A2 & A3 & A4 & A5) (B1 & B2 & B3 & B4 & B5). split; [congruence|]. split; [congruence|]. split; [congruence|]. split.
  - intros j M. rewrite B4. apply A4.
  - intros j M a J R. rewrite (B5 j M a); [apply (A5 j M a J R)|apply A4; exact J|rewrite A1; exact R].
Qed.
Lemma keeps_ctrl h lf c lf' : (forall j M, lf' j = Some (M, Live) <-> lf j = Some (M, Live)) -> keeps h lf (set_ctrl h c) lf'.
Proof. intro H. repeat split; auto; apply H. Qed.

(** ** splitting *)
Lemma split_loop_ok : forall d h lf fl i l, inv h (mp_n h) lf fl -> 0 <= l -> lf i = Some (l + Z.of_nat d, Held) ->
  exists h' lf' fl', split_loop d h i l = Ret h' /\ inv h' (mp_n h') lf' fl' /\ lf' i = Some (l, Held) /\ keeps h lf h' lf' /\
    (forall j M, lf' j = Some (M, Held) -> j = i \/ lf j = Some (M, Held)) /\ fsum fl' + 2 ^ l = fsum fl + 2 ^ (l + Z.of_nat d).
Proof.
  induction d as [|d IH]; intros h lf fl i l V HL A.
  - exists h, lf, fl. cbn [split_loop]. replace (l + Z.of_nat 0) with l in * by lia. split; [reflexivity|]. split; [exact V|]. split; [exact A|]. split; [apply keeps_refl|]. split; [auto|lia].
  - replace (l + Z.of_nat (S d)) with ((l + Z.of_nat d) + 1) in * by lia. cbn [split_loop]. set (B := l + Z.of_nat d) in *. assert (HB : 0 <= B) by lia.
    pose proof (leaf_rng _ _ _ _ V _ _ _ A) as (RL & RI & RN & RI2 & DI). pose proof (pow_pos B HB) as PB. rewrite pow_S in RN by lia.
    rewrite Z.shiftl_mul_pow2, Z.mul_1_l by lia. destruct (ctl_log B ltac:(lia)) as (_ & LB & _). rewrite LB.
    pose proof (split_none _ _ (v_tile _ _ _ _ V) i B Held HB A) as NU.
    pose proof (split_tiling _ _ (v_tile _ _ _ _ V) i B Held Held Held HB A) as T1.
    set (lf1 := upd (upd lf i (Some (B, Held))) (i + 2 ^ B) (Some (B, Held))) in *.
    assert (E1 : forall j L s, s <> Held -> (lf1 j = Some (L, s) <-> lf j = Some (L, s))).
    { intros j L s NS. unfold lf1. upd_case j (i + 2 ^ B); [rewrite NU; split; [congruence|discriminate]|]. upd_case j i; [rewrite A; split; congruence|tauto]. }
    assert (V1 : inv h (mp_n h) lf1 fl) by (eapply retile; [exact V|apply V|exact T1|exact E1]).
    assert (A1 : lf1 (i + 2 ^ B) = Some (B, Held)) by (unfold lf1; apply upd_eq).
    destruct (store_ctrl_ok h _ lf1 fl (i + 2 ^ B) (32 + B) V1 ltac:(lia)) as (c & E & V2 & C1 & C2); [intros L s H; rewrite A1 in H; congruence|].
    rewrite E. cbn [bind].
    assert (BU : buddy B (i + 2 ^ B) = i).
    { assert (buddy B i = i + 2 ^ B) as <-; [|apply buddy_buddy; [lia|]]. { unfold buddy. destruct DI as [k ->]. rewrite pow_S by lia. replace (k * (2 * 2 ^ B)) with (2 * k * 2 ^ B) by ring. rewrite odd_mul, Z.odd_mul by lia. reflexivity. }
      destruct DI as [k ->]. exists (2 * k). rewrite pow_S by lia. ring. }
    destruct (link_ok _ _ _ _ (i + 2 ^ B) B V2 A1 C1) as (m & f & EL & V3 & F3).
    { rewrite BU. unfold lf1. rewrite upd_ne by lia. rewrite upd_eq. discriminate. }
    rewrite EL. cbn [bind]. set (h3 := set_free (set_mem (set_ctrl h c) m) f) in *. set (lf3 := upd lf1 (i + 2 ^ B) (Some (B, Free))) in *.
    assert (A3 : lf3 i = Some (B, Held)) by (unfold lf3, lf1; rewrite !upd_ne by lia; apply upd_eq).
    destruct (IH h3 lf3 _ i l V3 HL A3) as (h' & lf' & fl' & E' & V' & A' & K' & H' & S').
    exists h', lf', fl'. split; [exact E'|]. split; [exact V'|]. split; [exact A'|]. split; [|split].
    + eapply keeps_trans; [|exact K']. split; [reflexivity|]. split; [reflexivity|]. split; [reflexivity|]. split.
      * intros j M. unfold lf3. upd_case j (i + 2 ^ B); [rewrite NU; split; discriminate|]. apply E1. discriminate.
      * intros j M a J R. apply (F3 j M a); [apply E1; [discriminate|exact J]|exact R].
    + intros j M J. destruct (H' j M J) as [->|J']; [left; reflexivity|]. unfold lf3 in J'. upd_case j (i + 2 ^ B); [discriminate|]. unfold lf1 in J'. rewrite upd_ne in J' by assumption.
      upd_case j i; [left; reflexivity|right; exact J'].
    + rewrite S', fsum_upd by lia. fold B. rewrite zlen_cons, pow_S by lia. lia.
Qed.

(** ** merging *)
Lemma odd_land i l : 0 <= l -> (Z.land (Z.shiftr i l) 1 =? 1) = Z.odd (i / 2 ^ l).
Proof.
  intro HL. rewrite Z.shiftr_div_pow2 by lia. change 1 with (Z.ones 1) at 1. rewrite Z.land_ones by lia. change (2 ^ 1) with 2. rewrite Zodd_mod.
  unfold Zeq_bool, Z.eqb. generalize (i / 2 ^ l mod 2). intro z. destruct z as [|[| |]|]; reflexivity.
Qed.
Lemma merge_loop_ok : forall fuel h lf fl i l, inv h (mp_n h) lf fl -> lf i = Some (l, Held) -> znth i (mp_ctrl h) = Some (32 + l) ->
  (forall j M, lf j = Some (M, Held) -> j = i) -> 30 <= l + Z.of_nat fuel ->
  exists h' lf' fl' i' l', merge_loop fuel h i l = Ret (h', i', l') /\ inv h' (mp_n h') lf' fl' /\ lf' i' = Some (l', Held) /\ znth i' (mp_ctrl h') = Some (32 + l') /\
    (forall j M, lf' j = Some (M, Held) -> j = i') /\ lf' (buddy l' i') <> Some (l', Free) /\ keeps h lf h' lf' /\ fsum fl' + 2 ^ l' = fsum fl + 2 ^ l.
Proof.
  induction fuel as [|fuel IH]; intros h lf fl i l V A C UH FU; pose proof (leaf_rng _ _ _ _ V _ _ _ A) as (RL & RI & RN & RI2 & DI); pose proof (pow_pos l ltac:(lia)) as PL;
    assert (N30 : mp_n h < 2 ^ 30) by (pose proof (v_max _ _ _ _ V); pose proof (v_sz _ _ _ _ V); change (2 ^ 30) with 1073741824; unfold two31 in *; nia).
  1: { exfalso. assert (l = 30) as -> by lia. lia. }
  assert (STOP : lf (buddy l i) <> Some (l, Free) -> exists h' lf' fl' i' l', Ret (h, i, l) = Ret (h', i', l') /\ inv h' (mp_n h') lf' fl' /\ lf' i' = Some (l', Held) /\ znth i' (mp_ctrl h') = Some (32 + l') /\
    (forall j M, lf' j = Some (M, Held) -> j = i') /\ lf' (buddy l' i') <> Some (l', Free) /\ keeps h lf h' lf' /\ fsum fl' + 2 ^ l' = fsum fl + 2 ^ l).
  { intro NB. exists h, lf, fl, i, l. split; [reflexivity|]. split; [exact V|]. split; [exact A|]. split; [exact C|]. split; [exact UH|]. split; [exact NB|]. split; [apply keeps_refl|reflexivity]. }
  cbn [merge_loop]. destruct (Z.ltb_spec l 30) as [L30|L30]; [|assert (l = 30) as -> by lia; lia].
  rewrite odd_land, Z.shiftl_mul_pow2, Z.mul_1_l by lia. cbv zeta. change (if Z.odd (i / 2 ^ l) then i - 2 ^ l else i + 2 ^ l) with (buddy l i).
  pose proof (parent i l ltac:(lia) DI) as (P1 & P2 & P3 & P4 & P5 & P6 & P7 & P8 & P9). specialize (P8 RI).
  rewrite assert_true by (apply orb_true_iff; right; lia). cbn [bind].
  destruct (negb (Z.odd (i / 2 ^ l)) && (mp_n h <=? buddy l i)) eqn:OUT.
  { apply STOP. apply andb_true_iff in OUT as [_ OUT]. intro B. apply (leaf_rng _ _ _ _ V) in B. lia. }
  assert (BR : 0 <= buddy l i < mp_n h).
  { split; [lia|]. destruct (Z.odd (i / 2 ^ l)) eqn:O; [unfold buddy; rewrite O; lia|]. cbn [negb andb] in OUT. lia. }
  destruct (buddy_leaf _ _ (v_tile _ _ _ _ V) i l Held A ltac:(lia)) as (M & t & B & ML). destruct (ctl_log l RL) as (_ & LL & _). rewrite LL.
  destruct (znth_in_range (buddy l i) (mp_ctrl h) ltac:(rewrite (v_ctl _ _ _ _ V); lia)) as (cb & CB). rewrite (mload_znth _ _ _ CB). cbn [bind].
  destruct (cb =? 32 + l) eqn:Q; cbn [negb].
  2: { apply STOP. intro B'. apply (v_cf _ _ _ _ V) in B'. rewrite CB in B'. injection B' as ->. lia. }
  assert (cb = 32 + l) as -> by lia. pose proof (leaf_rng _ _ _ _ V _ _ _ B) as RM.
  assert (BF : lf (buddy l i) = Some (l, Free)).
  { destruct t.
    - pose proof (v_cf _ _ _ _ V _ _ B) as X. rewrite CB in X. injection X as X. assert (M = l) as <- by lia. exact B.
    - pose proof (v_cl _ _ _ _ V _ _ B) as X. rewrite CB in X. injection X as X. lia.
    - apply UH in B. lia. }
  clear B M t ML RM. destruct (unlink_ok _ _ _ _ _ _ V BF) as (a & b & m & f & FL & EU & V1 & F1). rewrite EU. cbn [bind].
  set (h1 := set_free (set_mem h m) f) in *. set (lf1 := upd lf (buddy l i) (Some (l, Held))) in *.
  assert (A1 : lf1 i = Some (l, Held)) by (unfold lf1; rewrite upd_ne by lia; exact A).
  assert (B1 : lf1 (buddy l i) = Some (l, Held)) by (unfold lf1; apply upd_eq).
  assert (G : forall lo hi, lo = Z.min i (buddy l i) -> hi = Z.max i (buddy l i) ->
    exists h2 lf2, (do h <- store_ctrl h1 lo (32 + (l + 1)); do h <- store_ctrl h hi 0; Ret (h, lo)) = Ret (h2, lo) /\ inv h2 (mp_n h2) lf2 (upd fl l (a ++ b)) /\ lf2 lo = Some (l + 1, Held) /\
      znth lo (mp_ctrl h2) = Some (32 + (l + 1)) /\ (forall j M, lf2 j = Some (M, Held) -> j = lo) /\ keeps h lf h2 lf2).
  { intros lo hi LO HI. assert (HLO : hi = lo + 2 ^ l). { unfold buddy in *. destruct (Z.odd (i / 2 ^ l)); lia. }
    assert (ALO : lf1 lo = Some (l, Held)) by (destruct (Z.min_spec i (buddy l i)) as [[_ X]|[_ X]]; rewrite LO, X; assumption).
    assert (AHI : lf1 (lo + 2 ^ l) = Some (l, Held)) by (rewrite <- HLO; destruct (Z.max_spec i (buddy l i)) as [[_ X]|[_ X]]; rewrite HI, X; assumption).
    assert (DLO : (2 ^ (l + 1) | lo)). { replace lo with (if Z.odd (i / 2 ^ l) then i - 2 ^ l else i); [exact P1|]. unfold buddy in LO, HI. destruct (Z.odd (i / 2 ^ l)); lia. }
    pose proof (leaf_rng _ _ _ _ V1 _ _ _ ALO) as RLO. pose proof (leaf_rng _ _ _ _ V1 _ _ _ AHI) as RHI. change (mp_n h1) with (mp_n h) in *.
    destruct (store_ctrl_ok h1 _ lf1 _ lo (32 + (l + 1)) V1 ltac:(cbn; lia)) as (c1 & E1 & V2 & C1 & C2); [intros L s H; rewrite ALO in H; congruence|].
    rewrite E1. cbn [bind].
    destruct (store_ctrl_ok (set_ctrl h1 c1) _ lf1 _ hi 0 V2 ltac:(cbn; lia)) as (c2 & E2 & V3 & C3 & C4); [intros L s H; rewrite HLO, AHI in H; congruence|].
    rewrite E2. cbn [bind]. change (set_ctrl (set_ctrl h1 c1) c2) with (set_ctrl h1 c2) in *.
    pose proof (merge_tiling _ _ (v_tile _ _ _ _ V3) lo l Held Held Held ltac:(lia) ltac:(lia) ALO AHI DLO) as T2.
    exists (set_ctrl h1 c2), (upd (upd lf1 (lo + 2 ^ l) None) lo (Some (l + 1, Held))).
    assert (EQ : forall j L s, s <> Held -> (upd (upd lf1 (lo + 2 ^ l) None) lo (Some (l + 1, Held)) j = Some (L, s) <-> lf1 j = Some (L, s))).
    { intros j L s NS. upd_case j lo; [rewrite ALO; split; congruence|]. upd_case j (lo + 2 ^ l); [rewrite AHI; split; congruence|tauto]. }
    split; [reflexivity|]. split; [|split; [apply upd_eq|split; [|split]]].
    - eapply retile; [exact V3|apply V3|exact T2|exact EQ].
    - cbn [mp_ctrl set_ctrl] in *. rewrite C4 by lia. exact C1.
    - intros j M J. upd_case j lo; [reflexivity|]. upd_case j (lo + 2 ^ l); [discriminate|]. exfalso. unfold lf1 in J.
      upd_case j (buddy l i); [|apply UH in J; lia]. lia.
    - split; [reflexivity|]. split; [reflexivity|]. split; [reflexivity|]. split; [|exact F1]. intros j M. rewrite EQ by discriminate. unfold lf1. upd_case j (buddy l i); [rewrite BF; split; congruence|tauto]. }
  destruct (ctl_log (l + 1) ltac:(lia)) as (_ & LL1 & _). rewrite LL1.
  assert (G2 : exists h2 lf2 lo, (if buddy l i <? i then do h <- store_ctrl h1 (buddy l i) (32 + (l + 1)); do h <- store_ctrl h i 0; Ret (h, buddy l i)
      else do h <- store_ctrl h1 i (32 + (l + 1)); do h <- store_ctrl h (buddy l i) 0; Ret (h, i)) = Ret (h2, lo) /\ inv h2 (mp_n h2) lf2 (upd fl l (a ++ b)) /\ lf2 lo = Some (l + 1, Held) /\
      znth lo (mp_ctrl h2) = Some (32 + (l + 1)) /\ (forall j M, lf2 j = Some (M, Held) -> j = lo) /\ keeps h lf h2 lf2).
  { destruct (Z.ltb_spec (buddy l i) i).
    - destruct (G (buddy l i) i ltac:(lia) ltac:(lia)) as (h2 & lf2 & X). exists h2, lf2, (buddy l i). exact X.
    - destruct (G i (buddy l i) ltac:(lia) ltac:(lia)) as (h2 & lf2 & X). exists h2, lf2, i. exact X. }
  destruct G2 as (h2 & lf2 & lo & -> & V2 & A2 & C2 & UH2 & K2). cbn [bind].
  destruct (IH h2 lf2 _ lo (l + 1) V2 A2 C2 UH2 ltac:(lia)) as (h' & lf' & fl' & i' & l' & E' & V' & A' & C' & UH' & NB' & K' & S').
  exists h', lf', fl', i', l'. split; [exact E'|]. split; [exact V'|]. split; [exact A'|]. split; [exact C'|]. split; [exact UH'|]. split; [exact NB'|]. split; [eapply keeps_trans; eassumption|].
  rewrite S', fsum_upd by lia. rewrite FL. rewrite !zlen_app, zlen_cons, pow_S by lia. lia.
Qed.
