(** Proofs for C77, part 3: allocating and freeing *)
From Verif Require Import CBase SeqLib HashmapProof MpliteModel MpliteSpec MpliteProof MpliteProof2 MpliteProof3 MpliteProof4 MpliteProof6 MpMtModel MpMtProof MpMtProof2.

Section W.
Variables (G GC : Z -> Prop).
Notation wp := (wp G GC).
Notation prot := (prot G GC).

Lemma wp_merge {T} : forall fuel h lf fl i l h' i' l' (k : Z -> Z -> prog T) Q, inv h (mp_n h) lf fl -> prot h lf -> lf i = Some (l, Held) -> znth i (mp_ctrl h) = Some (32 + l) ->
  (forall j M, lf j = Some (M, Held) -> j = i) -> merge_loop fuel h i l = Ret (h', i', l') -> wp (k i' l') h' Q -> wp (merge_code (mp_sz h) (mp_n h) fuel i l k) h Q.
Proof.
  induction fuel as [|fuel IH]; intros h lf fl i l h' i' l' k Q V P A C UH E W; cbn [merge_loop merge_code] in *.
  all: (destruct (Z.ltb_spec l 30) as [L30|L30]; [|injection E as <- <- <-; exact W]).
  all: pose proof (leaf_rng _ _ _ _ V _ _ _ A) as (RL & RI & RN & RI2 & DI); pose proof (pow_pos l ltac:(lia)) as PL.
  all: rewrite odd_land, Z.shiftl_mul_pow2, Z.mul_1_l in * by lia; cbv zeta in *; change (if Z.odd (i / 2 ^ l) then i - 2 ^ l else i + 2 ^ l) with (buddy l i) in *.
  all: pose proof (parent i l ltac:(lia) DI) as (P1 & P2 & P3 & P4 & P5 & P6 & P7 & P8 & P9); specialize (P8 RI).
  all: apply bind_inv in E as (u & AS & E); destruct u; apply assert_inv in AS; apply chk_true; [exact AS|].
  all: (destruct (negb (Z.odd (i / 2 ^ l)) && (mp_n h <=? buddy l i)) eqn:OUT; [injection E as <- <- <-; exact W|]).
  all: apply bind_inv in E as (cb & CB & E); cbn [MpMtProof.wp]; exists cb; (split; [exact CB|]); apply mload_some in CB.
  all: destruct (ctl_log l RL) as (_ & LL & _); rewrite LL in *.
  all: (destruct (cb =? 32 + l) eqn:Q0; cbn [negb] in *; [|injection E as <- <- <-; exact W]); assert (cb = 32 + l) as -> by lia.
  all: assert (BR : 0 <= buddy l i < mp_n h) by (split; [lia|]; destruct (Z.odd (i / 2 ^ l)) eqn:O; [unfold buddy; rewrite O; lia|]; cbn [negb andb] in OUT; lia).
  all: destruct (buddy_leaf _ _ (v_tile _ _ _ _ V) i l Held A ltac:(lia)) as (M & t & B & ML); pose proof (leaf_rng _ _ _ _ V _ _ _ B) as RM.
  all: assert (BF : lf (buddy l i) = Some (l, Free)) by (destruct t;
    [pose proof (v_cf _ _ _ _ V _ _ B) as X; rewrite CB in X; injection X as X; assert (M = l) as <- by lia; exact B|
     pose proof (v_cl _ _ _ _ V _ _ B) as X; rewrite CB in X; injection X as X; lia|apply UH in B; lia]).
  all: clear B M t ML RM; apply bind_inv in E as (hu & EU & E).
  { exfalso. destruct (buddy l i <? i); apply bind_inv in E as (y & _ & E); destruct y; discriminate E. }
  destruct (unlink_ok _ _ _ _ _ _ V BF) as (a & b & m & f & FL & EU' & V1 & F1). rewrite EU in EU'. injection EU' as ->.
  eapply wp_unlink_free; [exact V|exact P|exact BF|exact EU|].
  set (h1 := set_free (set_mem h m) f) in *. set (lf1 := upd lf (buddy l i) (Some (l, Held))) in *.
  assert (A1 : lf1 i = Some (l, Held)) by (unfold lf1; rewrite upd_ne by lia; exact A).
  assert (B1 : lf1 (buddy l i) = Some (l, Held)) by (unfold lf1; apply upd_eq).
  assert (PR1 : prot h1 lf1). { eapply prot_eq; [exact P|reflexivity|]. intros j M J. unfold lf1. upd_case j (buddy l i); [congruence|exact J]. }
  destruct (ctl_log (l + 1) ltac:(lia)) as (_ & LL1 & _). rewrite LL1 in *.
  assert (STEP : forall lo hi h2 (kk : prog T), lo = Z.min i (buddy l i) -> hi = Z.max i (buddy l i) -> (do h <- store_ctrl h1 lo (32 + (l + 1)); do h <- store_ctrl h hi 0; Ret (h, lo)) = Ret (h2, lo) ->
    (forall lf2, inv h2 (mp_n h2) lf2 (upd fl l (a ++ b)) -> prot h2 lf2 -> mp_sz h2 = mp_sz h -> mp_n h2 = mp_n h -> lf2 lo = Some (l + 1, Held) -> znth lo (mp_ctrl h2) = Some (32 + (l + 1)) -> (forall j M, lf2 j = Some (M, Held) -> j = lo) -> wp kk h2 Q) ->
    wp (StC lo (32 + (l + 1)) (StC hi 0 kk)) h1 Q).
  { intros lo hi h2 kk LO HI ES K. assert (HLO : hi = lo + 2 ^ l). { unfold buddy in *. destruct (Z.odd (i / 2 ^ l)); lia. }
    assert (ALO : lf1 lo = Some (l, Held)) by (destruct (Z.min_spec i (buddy l i)) as [[_ X]|[_ X]]; rewrite LO, X; assumption).
    assert (AHI : lf1 (lo + 2 ^ l) = Some (l, Held)) by (rewrite <- HLO; destruct (Z.max_spec i (buddy l i)) as [[_ X]|[_ X]]; rewrite HI, X; assumption).
    assert (DLO : (2 ^ (l + 1) | lo)). { replace lo with (if Z.odd (i / 2 ^ l) then i - 2 ^ l else i); [exact P1|]. unfold buddy in LO, HI. destruct (Z.odd (i / 2 ^ l)); lia. }
    pose proof (leaf_rng _ _ _ _ V1 _ _ _ ALO) as RLO. pose proof (leaf_rng _ _ _ _ V1 _ _ _ AHI) as RHI. change (mp_n h1) with (mp_n h) in *.
    destruct (store_ctrl_ok h1 _ lf1 _ lo (32 + (l + 1)) V1 ltac:(cbn; lia)) as (c1 & E1 & V2 & C1 & C2); [intros L s H; rewrite ALO in H; congruence|].
    rewrite E1 in ES. cbn [bind] in ES.
    destruct (store_ctrl_ok (set_ctrl h1 c1) _ lf1 _ hi 0 V2 ltac:(cbn; lia)) as (c2 & E2 & V3 & C3 & C4); [intros L s H; rewrite HLO, AHI in H; congruence|].
    rewrite E2 in ES. cbn [bind] in ES. change (set_ctrl (set_ctrl h1 c1) c2) with (set_ctrl h1 c2) in *. injection ES as <-.
    unfold store_ctrl in E1, E2. apply bind_inv in E1 as (c1' & E1 & X). assert (c1' = c1) as -> by (apply (f_equal (fun o => match o with Ret x => mp_ctrl x | _ => [] end)) in X; exact X). clear X.
    apply bind_inv in E2 as (c2' & E2 & X). assert (c2' = c2) as -> by (apply (f_equal (fun o => match o with Ret x => mp_ctrl x | _ => [] end)) in X; exact X). clear X.
    cbn [MpMtProof.wp]. split; [eapply ctl_clear; [exact PR1|]; intros M X; congruence|]. exists c1. split; [exact E1|]. split; [eapply ctl_clear; [exact PR1|]; intros M X; rewrite HLO in X; congruence|]. exists c2. split; [exact E2|].
    change (set_ctrl (set_ctrl h1 c1) c2) with (set_ctrl h1 c2).
    pose proof (merge_tiling _ _ (v_tile _ _ _ _ V3) lo l Held Held Held ltac:(lia) ltac:(lia) ALO AHI DLO) as T2.
    assert (EQ : forall j L s, s <> Held -> (upd (upd lf1 (lo + 2 ^ l) None) lo (Some (l + 1, Held)) j = Some (L, s) <-> lf1 j = Some (L, s))).
    { intros j L s NS. upd_case j lo; [rewrite ALO; split; congruence|]. upd_case j (lo + 2 ^ l); [rewrite AHI; split; congruence|tauto]. }
    apply (K (upd (upd lf1 (lo + 2 ^ l) None) lo (Some (l + 1, Held)))).
    - eapply retile; [exact V3|apply V3|exact T2|exact EQ].
    - eapply prot_eq; [exact PR1|reflexivity|]. intros j M J. apply EQ; [discriminate|exact J].
    - reflexivity.
    - reflexivity.
    - apply upd_eq.
    - cbn [mp_ctrl set_ctrl] in *. rewrite C4 by lia. exact C1.
    - intros j M J. upd_case j lo; [reflexivity|]. upd_case j (lo + 2 ^ l); [discriminate|]. exfalso. unfold lf1 in J.
      upd_case j (buddy l i); [|apply UH in J; lia]. lia. }
  destruct (Z.ltb_spec (buddy l i) i) as [LT|GE].
  - apply bind_inv in E as ((h2 & lo) & ES & E). assert (lo = buddy l i) as ->. { apply bind_inv in ES as (x1 & _ & ES). apply bind_inv in ES as (x2 & _ & ES). injection ES as _ <-. reflexivity. }
    eapply (STEP (buddy l i) i h2); [lia|lia|exact ES|]. intros lf2 V2 PR2 Z2 N2 A2 C2 UH2. rewrite <- Z2, <- N2. eapply (IH h2 lf2); eassumption.
  - apply bind_inv in E as ((h2 & lo) & ES & E). assert (lo = i) as ->. { apply bind_inv in ES as (x1 & _ & ES). apply bind_inv in ES as (x2 & _ & ES). injection ES as _ <-. reflexivity. }
    eapply (STEP i (buddy l i) h2); [lia|lia|exact ES|]. intros lf2 V2 PR2 Z2 N2 A2 C2 UH2. rewrite <- Z2, <- N2. eapply (IH h2 lf2); eassumption.
Qed.

(** ** malloc *)
Lemma setc_setc h s : setc h s = set_stats h (k_nalloc s) (k_total s) (k_excess s) (k_out s) (k_count s) (k_maxout s) (k_maxcount s) (k_maxreq s). Proof. reflexivity. Qed.
Lemma wp_malloc {T} h lf fl k n h' r (kk : option Z -> prog T) Q : inv h (mp_n h) lf fl -> prot h lf -> mp_sz h = 2 ^ k -> 3 <= k <= 30 ->
  mplite_malloc_unsafe h n = Ret (h', r) -> wp (kk r) h' Q -> wp (malloc_code (mp_sz h) (mp_n h) n kk) h Q.
Proof.
  intros V P SK RK E W. unfold mplite_malloc_unsafe in E. unfold malloc_code.
  destruct ((n <=? 0) || (1073741824 <? n)) eqn:BAD; [injection E as <- <-; exact W|]. assert (N1 : 1 <= n <= 1073741824) by lia. cbn [MpMtProof.wp]. cbv zeta in *.
  set (h1 := if mp_maxreq h <? n then _ else h) in E.
  assert (H1 : inv h1 (mp_n h1) lf fl /\ prot h1 lf /\ mp_sz h1 = mp_sz h /\ mp_n h1 = mp_n h).
  { unfold h1. destruct (mp_maxreq h <? n); [split; [apply stats_inv; exact V|]|split; [exact V|]]; (split; [|split; reflexivity]); (eapply prot_eq; [exact P|reflexivity|auto]). }
  destruct H1 as (V1 & P1 & Z1 & NN1).
  match goal with |- wp (if _ then StS _ ?g else _) _ _ => assert (GO : wp g h1 Q) end.
  2: { cbn [k_maxreq getc]. unfold h1 in GO. destruct (mp_maxreq h <? n); [|exact GO]. cbn [MpMtProof.wp]. exact GO. }
  clearbody h1. rewrite <- Z1, <- NN1.
  set (e := Z.max 0 (Z.log2_up n - k)).
  assert (UP : Z.log2_up n <= 30) by (change 30 with (Z.log2_up 1073741824); apply Z.log2_up_le_mono; lia).
  assert (RNDL : round_loop 32 (mp_sz h1) 0 n = Ret (2 ^ (k + e), e)) by (rewrite Z1, SK; rewrite (round_loop_ok n N1 32 k e 0) by lia; reflexivity). rewrite RNDL in E |- *. cbn [bind] in E.
  apply bind_inv in E as (bin & FB & E). eapply wp_find; [exact FB|]. destruct (find_bin_ok _ _ _ _ V1 31 e ltac:(lia) ltac:(lia)) as (b & EB & RB & NB & YB). rewrite FB in EB. injection EB as <-.
  destruct (Z.ltb_spec 30 bin) as [GT|LE]; [injection E as <- <-; exact W|].
  destruct (YB LE) as (i & r0 & FI & EI). rewrite EI in E. cbn [bind] in E. cbn [MpMtProof.wp]. exists i. split; [exact EI|].
  assert (A : lf i = Some (bin, Free)) by (apply (v_in _ _ _ _ V1); rewrite FI; left; reflexivity).
  destruct (unlink_ok _ _ _ _ _ _ V1 A) as (fa & fb & m & f & FL & EU & V2 & F2). rewrite EU in E. cbn [bind] in E. eapply wp_unlink_free; [exact V1|exact P1|exact A|exact EU|].
  set (h2 := set_free (set_mem h1 m) f) in *. set (lf2 := upd lf i (Some (bin, Held))) in *.
  assert (A2 : lf2 i = Some (e + Z.of_nat (Z.to_nat (bin - e)), Held)) by (unfold lf2; rewrite upd_eq; repeat f_equal; lia).
  assert (P2 : prot h2 lf2). { eapply prot_eq; [exact P1|reflexivity|]. intros j M J. unfold lf2. upd_case j i; [congruence|exact J]. }
  destruct (split_loop_ok (Z.to_nat (bin - e)) h2 lf2 _ i e V2 ltac:(lia) A2) as (h3 & lf3 & fl3 & E3 & V3 & A3 & K3 & H3 & S3). rewrite E3 in E. cbn [bind] in E.
  pose proof (prot_keeps _ _ _ _ _ _ P2 K3) as P3. destruct K3 as (Z3 & NN3 & _).
  eapply (wp_split G GC (Z.to_nat (bin - e)) h2 lf2); [exact V2|exact P2|lia|exact A2|exact E3|].
  apply bind_inv in E as (h4 & E4 & E). unfold store_ctrl in E4. apply bind_inv in E4 as (c & E4 & X). injection X as <-. cbn [MpMtProof.wp]. split; [eapply ctl_clear; [exact P3|]; intros M X; congruence|].
  exists c. split; [exact E4|]. cbn [k_nalloc k_total k_excess k_out k_count k_maxout k_maxcount k_maxreq getc setc mp_nalloc mp_total mp_excess mp_out mp_count mp_maxout mp_maxcount mp_maxreq set_ctrl mp_sz set_stats] in *.
  injection E as <- <-. unfold setc. cbn [k_nalloc k_total k_excess k_out k_count k_maxout k_maxcount k_maxreq] in *. change (mp_sz h2) with (mp_sz h1) in Z3. rewrite Z3 in W. exact W.
Qed.

(** ** free *)
Lemma wp_free {T} h lf fl i L h' (kk : prog T) Q : inv h (mp_n h) lf fl -> clean lf -> lf i = Some (L, Live) -> prot h (upd lf i (Some (L, Held))) -> mplite_free_unsafe h (i * mp_sz h) = Ret h' -> wp kk h' Q ->
  wp (free_code (mp_sz h) (mp_n h) (i * mp_sz h) kk) h Q.
Proof.
  intros V CL A P E W. pose proof (leaf_rng _ _ _ _ V _ _ _ A) as (RL & RI & RN & RI2 & DI). pose proof (pow_pos L ltac:(lia)) as PL.
  pose proof (v_sz _ _ _ _ V) as SZ. pose proof (v_max _ _ _ _ V) as MX. assert (NB : mp_n h < two31) by nia. assert (T31 : two32 = 2 * two31) by reflexivity.
  destruct (ctl_log L RL) as (CL1 & CL2 & CL3 & CL4 & CL5).
  unfold mplite_free_unsafe in E. unfold free_code. assert (F31 : (31 <= 31)%nat) by lia. revert E F31. generalize 31%nat at 1 3 4. intros F E F31. rewrite Z.quot_mul in * by lia. cbv zeta in *. apply bind_inv in E as (u & AS & E); destruct u; apply assert_inv in AS; apply chk_true; [exact AS|].
  apply bind_inv in E as (u & AS1 & E); destruct u; apply assert_inv in AS1; apply chk_true; [exact AS1|].
  pose proof (mload_znth _ _ _ (v_cl _ _ _ _ V _ _ A)) as LD. rewrite LD in E. cbn [bind] in E. cbn [MpMtProof.wp]. exists L. split; [exact LD|]. rewrite CL4, CL3, CL2, Z.shiftl_mul_pow2, Z.mul_1_l in * by lia.
  apply bind_inv in E as (u & AS2 & E); destruct u; apply assert_inv in AS2; apply chk_true; [exact AS2|].
  apply bind_inv in E as (u & AS3 & E); destruct u; apply assert_inv in AS3; apply chk_true; [exact AS3|].
  pose proof (unlive _ _ _ _ _ _ V A) as V0. set (lf0 := upd lf i (Some (L, Held))) in *. assert (A0 : lf0 i = Some (L, Held)) by apply upd_eq.
  assert (NL : forall x, i <= x < i + 2 ^ L -> forall M s, lf0 x = Some (M, s) -> s = Held).
  { intros x RX M s H. destruct (Z.eq_dec x i) as [->|NE]; [rewrite A0 in H; congruence|]. exfalso.
    pose proof (leaf_rng _ _ _ _ V0 _ _ _ H) as RH. pose proof (pow_pos M ltac:(lia)). destruct (t_disj _ _ (v_tile _ _ _ _ V0) _ _ _ _ _ _ H A0 NE); lia. }
  assert (NG : forall x, i <= x < i + 2 ^ L -> ~ GC x). { intros x RX. eapply ctl_clear; [exact P|]. intros M X. apply NL in X; [discriminate X|exact RX]. }
  destruct (store_ctrl_ok h _ lf0 fl i (32 + L) V0 ltac:(lia)) as (c1 & E1 & V1 & C1 & C1'); [apply NL; lia|]. rewrite E1 in E. cbn [bind] in E.
  unfold store_ctrl in E1. apply bind_inv in E1 as (c1' & E1 & X). assert (c1' = c1) as -> by (apply (f_equal (fun o => match o with Ret x => mp_ctrl x | _ => [] end)) in X; exact X). clear X.
  cbn [MpMtProof.wp]. split; [apply NG; lia|]. exists c1. split; [exact E1|]. apply bind_inv in E as (x & X & E). exists x. split; [exact X|].
  destruct (store_ctrl_ok (set_ctrl h c1) _ lf0 fl (i + 2 ^ L - 1) (Z.lor x 32) V1 ltac:(cbn; lia)) as (c2 & E2 & V2 & C2 & C2'); [apply NL; lia|]. rewrite E2 in E. cbn [bind] in E.
  unfold store_ctrl in E2. apply bind_inv in E2 as (c2' & E2 & Y). assert (c2' = c2) as -> by (apply (f_equal (fun o => match o with Ret x => mp_ctrl x | _ => [] end)) in Y; exact Y). clear Y.
  split; [apply NG; lia|]. exists c2. split; [exact E2|]. change (set_ctrl (set_ctrl h c1) c2) with (set_ctrl h c2) in *.
  cbn [k_nalloc k_total k_excess k_out k_count k_maxout k_maxcount k_maxreq getc mp_nalloc mp_total mp_excess mp_out mp_count mp_maxout mp_maxcount mp_maxreq set_ctrl mp_sz set_stats] in *.
  apply bind_inv in E as (u & AS4 & E); destruct u; apply assert_inv in AS4; apply chk_true; [exact AS4|].
  apply bind_inv in E as (u & AS5 & E); destruct u; apply assert_inv in AS5; apply chk_true; [exact AS5|]. cbn [MpMtProof.wp]. unfold setc at 1. cbn [k_nalloc k_total k_excess k_out k_count k_maxout k_maxcount k_maxreq].
  apply bind_inv in E as (u & AS6 & E); destruct u; apply assert_inv in AS6; apply chk_true; [exact AS6|].
  apply bind_inv in E as (u & AS7 & E); destruct u; apply assert_inv in AS7; apply chk_true; [exact AS7|].
  set (h2 := set_stats (set_ctrl h c2) _ _ _ _ _ _ _ _) in *. assert (V2' : inv h2 (mp_n h2) lf0 fl) by (apply stats_inv; exact V2).
  destruct (store_ctrl_ok h2 _ lf0 fl i (32 + L) V2' ltac:(cbn; lia)) as (c3 & E3 & V3 & C3 & C3'); [apply NL; lia|]. rewrite E3 in E. cbn [bind] in E.
  unfold store_ctrl in E3. apply bind_inv in E3 as (c3' & E3 & Y). assert (c3' = c3) as -> by (apply (f_equal (fun o => match o with Ret x => mp_ctrl x | _ => [] end)) in Y; exact Y). clear Y.
  cbn [MpMtProof.wp]. split; [apply NG; lia|]. exists c3. split; [exact E3|].
  assert (P3 : prot (set_ctrl h2 c3) lf0) by (eapply prot_eq; [exact P|reflexivity|auto]).
  assert (UH : forall j M, lf0 j = Some (M, Held) -> j = i) by (intros j M J; unfold lf0 in J; upd_case j i; [reflexivity|]; exfalso; exact (CL _ _ J)).
  destruct (merge_loop_ok F (set_ctrl h2 c3) lf0 fl i L V3 A0 C3 UH ltac:(lia)) as (h4 & lf4 & fl4 & i4 & l4 & E4 & V4 & A4 & C4 & UH4 & NB4 & K4 & S4).
  rewrite E4 in E. cbn [bind] in E. eapply (wp_merge F (set_ctrl h2 c3) lf0); [exact V3|exact P3|exact A0|exact C3|exact UH|exact E4|].
  pose proof (prot_keeps _ _ _ _ _ _ P3 K4) as P4. destruct K4 as (Z4 & N4 & _). change (mp_sz (set_ctrl h2 c3)) with (mp_sz h) in *. change (mp_n (set_ctrl h2 c3)) with (mp_n h) in *. rewrite <- Z4, <- N4.
  pose proof (leaf_rng _ _ _ _ V4 _ _ _ A4) as R4. pose proof (pow_pos l4 ltac:(lia)). eapply wp_link_held; [exact V4|exact P4|exact A4|lia|lia|exact E|exact W].
Qed.
End W.
