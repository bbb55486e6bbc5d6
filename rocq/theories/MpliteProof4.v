From Verif Require Import CBase SeqLib HashmapProof MpliteModel MpliteSpec MpliteProof MpliteProof2 MpliteProof3.

Lemma sint_Ret v : - two31 <= v < two31 -> sint v = Ret v.
Proof. intro R. unfold sint, int_ok. destruct ((- two31 <=? v) && (v <? two31)) eqn:E; [reflexivity|lia]. Qed.

(** ** initialisation *)
Lemma pow_le_30 k : 0 <= k <= 30 -> 1 <= 2 ^ k <= 1073741824.
Proof. intro R. pose proof (pow_pos k ltac:(lia)). pose proof (Z.pow_le_mono_r 2 k 30 ltac:(lia) ltac:(lia)). change (2 ^ 30) with 1073741824 in *. lia. Qed.
Lemma init_step h off lf fl K : inv h off lf fl -> 0 <= K <= 30 -> (forall i L s, lf i = Some (L, s) -> K < L /\ s = Free) ->
  (2 ^ (K + 1) | off) -> mp_n h - off < 2 ^ (K + 1) -> fsum fl = off ->
  exists h1 off1 lf1 fl1, (if off + 2 ^ K <=? mp_n h then do h <- store_ctrl h off (Z.lor K 32); do h <- mplite_link h off K; Ret (h, off + 2 ^ K) else Ret (h, off)) = Ret (h1, off1) /\
      inv h1 off1 lf1 fl1 /\ (forall i L s, lf1 i = Some (L, s) -> K <= L /\ s = Free) /\ (2 ^ K | off1) /\ mp_n h1 - off1 < 2 ^ K /\ fsum fl1 = off1 /\ mp_sz h1 = mp_sz h /\ mp_n h1 = mp_n h /\ stats h1 = stats h.
Proof.
  intros V RK UL D LT FS. pose proof (v_top _ _ _ _ V) as RT. pose proof (pow_pos K ltac:(lia)) as PK. rewrite pow_S in * by lia.
  destruct D as [d D]. destruct (Z.leb_spec (off + 2 ^ K) (mp_n h)) as [LE|GT].
  2: { exists h, off, lf, fl. split; [reflexivity|]. split; [exact V|]. split; [intros i L s H; apply UL in H; split; [lia|tauto]|]. split; [exists (2 * d); lia|]. split; [lia|]. repeat split; exact FS. }
  assert (NO : forall x M t, lf x = Some (M, t) -> x + 2 ^ M <= off /\ 0 < 2 ^ M) by (intros x M t H; apply (t_leaf _ _ (v_tile _ _ _ _ V)) in H; split; [lia|apply pow_pos; lia]).
  assert (NU : lf off = None) by (destruct (lf off) as [[M t]|] eqn:E; [apply NO in E; lia|reflexivity]).
  pose proof (add_tiling _ _ (v_tile _ _ _ _ V) K Held ltac:(lia) ltac:(lia) ltac:(exists (2 * d); lia)) as T1. set (lf1 := upd lf off (Some (K, Held))) in *.
  assert (V1 : inv h (off + 2 ^ K) lf1 fl) by (eapply retile; [exact V|lia|exact T1|intros j L s NS; unfold lf1; upd_case j off; [rewrite NU; split; congruence|tauto]]).
  assert (A1 : lf1 off = Some (K, Held)) by (unfold lf1; apply upd_eq).
  destruct (ctl_log K ltac:(lia)) as (_ & _ & LK & _). rewrite LK.
  destruct (store_ctrl_ok h _ lf1 fl off (32 + K) V1 ltac:(lia)) as (c & E & V2 & C1 & C2); [intros L s H; rewrite A1 in H; congruence|]. rewrite E. cbn [bind].
  destruct (link_ok _ _ _ _ off K V2 A1 C1) as (m & f & EL & V3 & F3).
  { unfold lf1. intro X. destruct (Z.eq_dec (buddy K off) off) as [Q|Q]; [rewrite Q, upd_eq in X; discriminate|]. rewrite upd_ne in X by exact Q. apply UL in X. lia. }
  rewrite EL. cbn [bind]. eexists _, _, _, _. split; [reflexivity|]. split; [exact V3|]. split.
  { intros i L s H. unfold lf1 in H. upd_case i off; [injection H as <- <-; split; [lia|reflexivity]|apply UL in H; split; [lia|tauto]]. }
  split; [exists (2 * d + 1); lia|]. cbn [mp_n set_free set_mem set_ctrl mp_sz]. split; [lia|]. split; [rewrite fsum_upd, zlen_cons by lia; lia|repeat split].
Qed.
Lemma init_loop_ok : forall k h off lf fl, inv h off lf fl -> (k <= 30)%nat -> (forall i L s, lf i = Some (L, s) -> Z.of_nat k < L /\ s = Free) ->
  (2 ^ (Z.of_nat k + 1) | off) -> mp_n h - off < 2 ^ (Z.of_nat k + 1) -> fsum fl = off ->
  exists h' lf' fl', init_loop k h off = Ret h' /\ inv h' (mp_n h') lf' fl' /\ (forall i L s, lf' i = Some (L, s) -> s = Free) /\ fsum fl' = mp_n h /\
    mp_sz h' = mp_sz h /\ mp_n h' = mp_n h /\ stats h' = stats h.
Proof.
  induction k as [|k IH]; intros h off lf fl V K30 UL D LT FS; cbn [init_loop]; match goal with |- context [Z.shiftl 1 ?z] => set (K := z) in * end; pose proof (v_top _ _ _ _ V) as RT; pose proof (v_sz _ _ _ _ V) as SZ; pose proof (v_max _ _ _ _ V) as MX;
    assert (N30 : mp_n h < 1073741824) by (unfold two31 in *; nia);
    pose proof (pow_le_30 K ltac:(lia)) as PK;
    destruct (init_step h off lf fl K V ltac:(lia) UL D LT FS) as (h1 & off1 & lf1 & fl1 & ES & V1 & UL1 & D1 & LT1 & FS1 & Z1 & N1 & ST1); rewrite Z.shiftl_mul_pow2, Z.mul_1_l by lia;
    rewrite sint_Ret by (unfold two31 in *; lia); cbn [bind]; rewrite ES; cbn [bind]; pose proof (v_top _ _ _ _ V1); rewrite sint_Ret by (unfold two31 in *; lia); cbn [bind];
    rewrite assert_true by lia; cbn [bind].
  - change (2 ^ K) with 1 in *. assert (off1 = mp_n h1) as -> by lia. exists h1, lf1, fl1. split; [reflexivity|]. split; [exact V1|]. split; [intros i L s H'; apply UL1 in H'; tauto|].
    split; [lia|]. repeat split; assumption.
  - assert (K = Z.of_nat k + 1) as KE by lia. destruct (IH h1 off1 lf1 fl1 V1 ltac:(lia)) as (h' & lf' & fl' & E' & V' & U' & S' & Z' & N' & T').
    + intros i L s H'. apply UL1 in H'. split; [lia|tauto].
    + rewrite KE in D1. exact D1.
    + rewrite KE in LT1. exact LT1.
    + exact FS1.
    + exists h', lf', fl'. split; [exact E'|]. split; [exact V'|]. split; [exact U'|]. split; [lia|]. split; [lia|]. split; [lia|]. congruence.
Qed.

Lemma log_loop_ok v : 1 <= v <= 1073741824 -> forall fuel l, 0 <= l <= Z.log2_up v -> Z.log2_up v - l < Z.of_nat fuel -> log_loop fuel l v = Ret (Z.log2_up v).
Proof.
  intro RV. assert (UP : Z.log2_up v <= 30) by (change 30 with (Z.log2_up 1073741824); apply Z.log2_up_le_mono; lia).
  induction fuel as [|fuel IH]; intros l RL F; [lia|]. cbn [log_loop]. rewrite Z.shiftl_mul_pow2, Z.mul_1_l by lia.
  destruct (Z.ltb_spec l 31) as [|]; [|lia]. cbn [andb].
  destruct (Z.ltb_spec (2 ^ l) v) as [LT|GE].
  - apply IH; [|lia]. destruct (Z.eq_dec l (Z.log2_up v)) as [->|]; [|lia]. exfalso. destruct (Z.eq_dec v 1) as [->|]; [cbn in LT; lia|]. pose proof (Z.log2_up_spec v ltac:(lia)). lia.
  - f_equal. destruct (Z.eq_dec l (Z.log2_up v)); [assumption|]. exfalso. apply Z.log2_up_le_pow2 in GE; lia.
Qed.
Lemma mread_len {A} (l : list A) off n : 0 <= off -> 0 <= n -> off + n <= zlen l -> exists r, mread l off n = Ret r /\ zlen r = n.
Proof.
  intros R1 R2 R3. unfold mread. assert ((0 <=? off) && (0 <=? n) && (off + n <=? zlen l) = true) as -> by lia. eexists. split; [reflexivity|]. apply zlen_zsub; lia.
Qed.

(** ** rounding *)
Lemma fit_pow k n : 0 <= k -> 1 <= n -> fit (2 ^ k) n = 2 ^ Z.max k (Z.log2_up n).
Proof.
  intros K N. unfold fit. pose proof (Z.log2_up_nonneg n) as NN. destruct (Z.max_spec k (Z.log2_up n)) as [[H ->]|[H ->]].
  - pose proof (Z.pow_le_mono_r 2 k (Z.log2_up n) ltac:(lia) ltac:(lia)). lia.
  - pose proof (Z.pow_le_mono_r 2 (Z.log2_up n) k ltac:(lia) ltac:(lia)). lia.
Qed.
Lemma round_loop_ok n : 1 <= n <= 1073741824 -> forall fuel k e l, 0 <= k -> 0 <= l -> 0 <= e -> k + e = Z.max k (Z.log2_up n) -> e < Z.of_nat fuel -> k + e <= 30 ->
  round_loop fuel (2 ^ k) l n = Ret (2 ^ (k + e), l + e).
Proof.
  intros RN. induction fuel as [|fuel IH]; intros k e l RK RL RE KE F K30; [lia|]. cbn [round_loop].
  assert (SP : n <= 2 ^ k <-> Z.log2_up n <= k) by (apply Z.log2_up_le_pow2; lia).
  destruct (Z.ltb_spec (2 ^ k) n) as [LT|GE].
  - assert (k < Z.log2_up n) by lia. rewrite Z.shiftl_mul_pow2 by lia. rewrite sint_Ret by (pose proof (pow_pos k); unfold two31 in *; lia). cbn [bind].
    replace (2 ^ k * 2 ^ 1) with (2 ^ (k + 1)) by (rewrite Z.pow_add_r by lia; reflexivity). rewrite (IH (k + 1) (e - 1) (l + 1)) by lia.
    replace (k + 1 + (e - 1)) with (k + e) by lia; replace (l + 1 + (e - 1)) with (l + e) by lia; reflexivity.
  - assert (e = 0) as -> by lia. rewrite !Z.add_0_r. reflexivity.
Qed.

(** ** finding a block *)
Lemma head_hd h top lf fl L : inv h top lf fl -> 0 <= L <= 30 -> exists x, mload (mp_free h) L = Ret x /\ (x < 0 -> fl L = [] /\ x = -1) /\ (0 <= x -> exists r, fl L = x :: r).
Proof.
  intros V RL. exists (hd (-1) (fl L)). split; [exact (mload_znth _ _ _ (v_head _ _ _ _ V L RL))|]. pose proof (fun i => fl_rng _ _ _ _ V L i) as R. destruct (fl L) as [|y r]; cbn [hd].
  - split; [auto|lia].
  - specialize (R y (or_introl eq_refl)). split; [lia|]. intros _. exists r. reflexivity.
Qed.
Lemma find_bin_ok h top lf fl : inv h top lf fl -> forall fuel b, 0 <= b <= 31 -> 31 - b <= Z.of_nat fuel ->
  exists b', find_bin fuel h b = Ret b' /\ b <= b' <= 31 /\ (forall x, b <= x < b' -> fl x = []) /\ (b' <= 30 -> exists i r, fl b' = i :: r /\ mload (mp_free h) b' = Ret i).
Proof.
  intro V. induction fuel as [|fuel IH]; intros b RB F; cbn [find_bin]; (destruct (Z.leb_spec b 30) as [LE|GT]; [|exists b; split; [reflexivity|]; split; [lia|]; split; lia]); [lia|].
  destruct (head_hd _ _ _ _ b V ltac:(lia)) as (x & E & X1 & X2). rewrite E. cbn [bind]. destruct (Z.ltb_spec x 0) as [N|P].
  - destruct (IH (b + 1) ltac:(lia) ltac:(lia)) as (b' & E' & R' & N' & Y'). exists b'. split; [exact E'|]. split; [lia|]. split; [|exact Y'].
    intros y RY. destruct (Z.eq_dec y b) as [->|]; [apply X1; lia|apply N'; lia].
  - exists b. split; [reflexivity|]. split; [lia|]. split; [lia|]. intros _. destruct (X2 P) as (r & F'). exists x, r. split; assumption.
Qed.

(** ** malloc *)
Definition clean (lf : leaves) : Prop := forall i L, lf i <> Some (L, Held).
Lemma frame_live h h' lf j M a : frame h h' lf -> lf j = Some (M, Live) -> j * mp_sz h <= a < (j + 2 ^ M) * mp_sz h -> znth a (mp_mem h') = znth a (mp_mem h).
Proof. intros F J R. exact (F j M a J R). Qed.

Lemma malloc_ok h lf fl k n : inv h (mp_n h) lf fl -> clean lf -> mp_sz h = 2 ^ k -> 3 <= k <= 30 -> - two31 <= n < two31 ->
  exists h' r, mplite_malloc_unsafe h n = Ret (h', r) /\
  match r with
  | None => inv h' (mp_n h') lf fl /\ mp_sz h' = mp_sz h /\ mp_n h' = mp_n h /\ mp_mem h' = mp_mem h /\ mp_out h' = mp_out h /\ mp_count h' = mp_count h /\
      (1 <= n <= 1073741824 -> forall j M, lf j = Some (M, Free) -> 2 ^ k * 2 ^ M < fit (2 ^ k) n)
  | Some p => 1 <= n <= 1073741824 /\ exists i L lf' fl', p = i * mp_sz h /\ fit (2 ^ k) n = mp_sz h * 2 ^ L /\ inv h' (mp_n h') lf' fl' /\ clean lf' /\ mp_sz h' = mp_sz h /\ mp_n h' = mp_n h /\
      lf' i = Some (L, Live) /\ (forall M, lf i <> Some (M, Live)) /\ (forall j M, j <> i -> (lf' j = Some (M, Live) <-> lf j = Some (M, Live))) /\ frame h h' lf /\
      mp_out h' = u32 (mp_out h + mp_sz h * 2 ^ L) /\ mp_count h' = u32 (mp_count h + 1) /\ fsum fl' + 2 ^ L = fsum fl /\
      (exists j M, lf j = Some (M, Free) /\ L <= M)
  end.
Proof.
  intros V CL SK RK RN. unfold mplite_malloc_unsafe.
  destruct ((n <=? 0) || (1073741824 <? n)) eqn:BAD.
  { exists h, None. split; [reflexivity|]. split; [exact V|]. repeat split; try reflexivity. lia. }
  assert (N1 : 1 <= n <= 1073741824) by lia.
  set (h1 := if mp_maxreq h <? n then _ else h).
  assert (H1 : inv h1 (mp_n h1) lf fl /\ mp_sz h1 = mp_sz h /\ mp_n h1 = mp_n h /\ mp_mem h1 = mp_mem h /\ mp_out h1 = mp_out h /\ mp_count h1 = mp_count h /\ mp_free h1 = mp_free h).
  { unfold h1. destruct (mp_maxreq h <? n); [split; [apply stats_inv; exact V|repeat split]|split; [exact V|repeat split]]. }
  destruct H1 as (V1 & Z1 & NN1 & M1 & O1 & CN1 & F1). clearbody h1.
  set (e := Z.max 0 (Z.log2_up n - k)).
  assert (UP : Z.log2_up n <= 30) by (change 30 with (Z.log2_up 1073741824); apply Z.log2_up_le_mono; lia).
  assert (FE : fit (2 ^ k) n = 2 ^ (k + e)) by (rewrite fit_pow by lia; f_equal; lia).
  assert (Z1K : mp_sz h1 = 2 ^ k) by congruence. rewrite Z1K. rewrite (round_loop_ok n N1 32 k e 0) by lia. cbn [bind]. rewrite Z.add_0_l.
  assert (FEM : fit (2 ^ k) n = 2 ^ k * 2 ^ e) by (rewrite FE; apply Z.pow_add_r; lia).
  destruct (find_bin_ok _ _ _ _ V1 31 e ltac:(lia) ltac:(lia)) as (b & EB & RB & NB & YB). rewrite EB. cbn [bind].
  destruct (Z.ltb_spec 30 b) as [GT|LE].
  { exists h1, None. split; [reflexivity|]. split; [exact V1|]. split; [assumption|]. split; [assumption|]. split; [assumption|]. split; [assumption|]. split; [assumption|].
    intros _ j M J. rewrite FEM. assert (M < e).
    { destruct (Z_lt_ge_dec M e); [assumption|]. exfalso. pose proof (leaf_rng _ _ _ _ V _ _ _ J) as RJ. apply (v_in _ _ _ _ V) in J. rewrite NB in J by lia. exact J. }
    pose proof (leaf_rng _ _ _ _ V _ _ _ J) as RJ. pose proof (Z.pow_lt_mono_r 2 M e ltac:(lia) ltac:(lia) ltac:(lia)). pose proof (pow_pos k). nia. }
  destruct (YB LE) as (i & r & FI & EI). rewrite EI. cbn [bind].
  assert (A : lf i = Some (b, Free)) by (apply (v_in _ _ _ _ V1); rewrite FI; left; reflexivity).
  destruct (unlink_ok _ _ _ _ _ _ V1 A) as (fa & fb & m & f & FL & EU & V2 & F2). rewrite EU. cbn [bind].
  set (h2 := set_free (set_mem h1 m) f) in *. set (lf2 := upd lf i (Some (b, Held))) in *.
  assert (A2 : lf2 i = Some (e + Z.of_nat (Z.to_nat (b - e)), Held)) by (unfold lf2; rewrite upd_eq; repeat f_equal; lia).
  destruct (split_loop_ok (Z.to_nat (b - e)) h2 lf2 _ i e V2 ltac:(lia) A2) as (h3 & lf3 & fl3 & E3 & V3 & A3 & K3 & H3 & S3).
  rewrite E3. cbn [bind]. destruct K3 as (Z3 & NN3 & T3 & L3 & FR3).
  pose proof (leaf_rng _ _ _ _ V3 _ _ _ A3) as R3.
  destruct (store_ctrl_ok h3 _ lf3 fl3 i e V3 ltac:(lia)) as (c & EC & V4 & C1 & C2); [intros L s H; rewrite A3 in H; congruence|]. rewrite EC. cbn [bind].
  pose proof (relive _ _ _ _ _ _ V4 A3 C1) as V5.
  eexists _, (Some _). split; [reflexivity|]. split; [exact N1|]. cbn [mp_sz mp_n mp_out mp_count mp_mem set_stats set_ctrl]. rewrite Z3. change (mp_sz h2) with (mp_sz h1). rewrite Z1.
  assert (OUT : mp_out h3 = mp_out h /\ mp_count h3 = mp_count h).
  { assert (stats h3 = stats h1) as T by (rewrite T3; reflexivity). unfold stats in T. injection T as ? ? ? ? ? ? ? ?. split; congruence. }
  exists i, e, (upd lf3 i (Some (e, Live))), fl3. split; [reflexivity|]. split; [rewrite SK; exact FEM|]. split; [apply stats_inv; exact V5|]. split.
  { intros j L J. upd_case j i; [discriminate|]. destruct (H3 j L J) as [->|J']; [congruence|]. unfold lf2 in J'. rewrite upd_ne in J' by assumption. exact (CL _ _ J'). }
  split; [reflexivity|]. split; [rewrite NN3; exact NN1|]. split; [apply upd_eq|]. split; [intros M X; congruence|]. split.
  { intros j M NE. rewrite upd_ne by exact NE. rewrite L3. unfold lf2. rewrite upd_ne by exact NE. reflexivity. }
  split.
  { intros j M a J R. cbn [mp_mem set_stats set_ctrl]. assert (j <> i) by (intros ->; congruence).
    rewrite (FR3 j M a); [|unfold lf2; rewrite upd_ne by assumption; exact J|change (mp_sz h2) with (mp_sz h1); rewrite Z1; exact R].
    rewrite <- M1. apply (F2 j M a J). rewrite Z1. exact R. }
  destruct OUT as [-> ->]. rewrite SK. split; [do 2 f_equal; rewrite Z.pow_add_r by lia; reflexivity|]. split; [reflexivity|]. split.
  { rewrite fsum_upd in S3 by lia. replace (e + Z.of_nat (Z.to_nat (b - e))) with b in S3 by lia. rewrite FL, !zlen_app, zlen_cons in S3. lia. }
  exists i, b. split; [exact A|lia].
Qed.

(** ** free *)
Lemma free_ok h lf fl i L : inv h (mp_n h) lf fl -> clean lf -> lf i = Some (L, Live) ->
  0 < mp_count h < two32 -> 2 ^ L * mp_sz h <= mp_out h < two32 -> (mp_count h = 1 <-> mp_out h = 2 ^ L * mp_sz h) ->
  exists h' lf' fl', mplite_free_unsafe h (i * mp_sz h) = Ret h' /\ inv h' (mp_n h') lf' fl' /\ clean lf' /\ mp_sz h' = mp_sz h /\ mp_n h' = mp_n h /\
    (forall M, lf' i <> Some (M, Live)) /\ (forall j M, j <> i -> (lf' j = Some (M, Live) <-> lf j = Some (M, Live))) /\
    (forall j M a, j <> i -> lf j = Some (M, Live) -> j * mp_sz h <= a < (j + 2 ^ M) * mp_sz h -> znth a (mp_mem h') = znth a (mp_mem h)) /\
    mp_out h' = mp_out h - 2 ^ L * mp_sz h /\ mp_count h' = mp_count h - 1 /\ fsum fl' = fsum fl + 2 ^ L.
Proof.
  intros V CL A RC RO IFF. pose proof (leaf_rng _ _ _ _ V _ _ _ A) as (RL & RI & RN & RI2 & DI). pose proof (pow_pos L ltac:(lia)) as PL.
  pose proof (v_sz _ _ _ _ V) as SZ. pose proof (v_max _ _ _ _ V) as MX. assert (NB : mp_n h < two31) by nia. assert (T31 : two32 = 2 * two31) by reflexivity.
  destruct (ctl_log L RL) as (CL1 & CL2 & CL3 & CL4 & CL5).
  unfold mplite_free_unsafe. rewrite Z.quot_mul by lia. cbv zeta. rewrite assert_true by lia. cbn [bind]. rewrite Z.rem_mul by lia. cbn [Z.eqb assert_ bind].
  rewrite (mload_znth _ _ _ (v_cl _ _ _ _ V _ _ A)). cbn [bind]. rewrite CL5. cbn [Z.eqb assert_ bind]. rewrite CL4, CL3, CL2, Z.shiftl_mul_pow2, Z.mul_1_l by lia.
  assert (SMALL : forall x, 0 <= x < two32 -> u32 x = x) by (intros x X; unfold u32; apply Z.mod_small; exact X).
  rewrite (SMALL (i + 2 ^ L - 1)) by lia. rewrite assert_true by lia. cbn [bind].
  pose proof (unlive _ _ _ _ _ _ V A) as V0. set (lf0 := upd lf i (Some (L, Held))) in *. assert (A0 : lf0 i = Some (L, Held)) by apply upd_eq.
  destruct (store_ctrl_ok h _ lf0 fl i (32 + L) V0 ltac:(lia)) as (c1 & E1 & V1 & C1 & C1'); [intros M s H; rewrite A0 in H; congruence|]. rewrite E1. cbn [bind].
  destruct (znth_in_range (i + 2 ^ L - 1) (mp_ctrl (set_ctrl h c1)) ltac:(rewrite (v_ctl _ _ _ _ V1); cbn; lia)) as (x & X). rewrite (mload_znth _ _ _ X). cbn [bind].
  destruct (store_ctrl_ok (set_ctrl h c1) _ lf0 fl (i + 2 ^ L - 1) (Z.lor x 32) V1 ltac:(cbn; lia)) as (c2 & E2 & V2 & C2 & C2').
  { intros M s H. destruct (Z.eq_dec (i + 2 ^ L - 1) i) as [EQ|NE]; [rewrite EQ, A0 in H; congruence|]. exfalso.
    pose proof (leaf_rng _ _ _ _ V0 _ _ _ H) as RH. pose proof (pow_pos M ltac:(lia)). destruct (t_disj _ _ (v_tile _ _ _ _ V0) _ _ _ _ _ _ H A0 NE); lia. }
  rewrite E2. cbn [bind]. change (set_ctrl (set_ctrl h c1) c2) with (set_ctrl h c2) in *. cbn [mp_count mp_out mp_sz set_ctrl set_stats mp_nalloc mp_total mp_excess mp_maxout mp_maxcount mp_maxreq].
  assert (PS : 0 < 2 ^ L * mp_sz h) by nia. rewrite (SMALL (2 ^ L * mp_sz h)) by lia. rewrite !assert_true by lia. cbn [bind].
  rewrite (SMALL (mp_count h - 1)), (SMALL (mp_out h - 2 ^ L * mp_sz h)) by lia. rewrite !assert_true by lia. cbn [bind].
  set (h2 := set_stats (set_ctrl h c2) _ _ _ _ _ _ _ _). assert (V2' : inv h2 (mp_n h2) lf0 fl) by (apply stats_inv; exact V2).
  destruct (store_ctrl_ok h2 _ lf0 fl i (32 + L) V2' ltac:(cbn; lia)) as (c3 & E3 & V3 & C3 & C3'); [intros M s H; rewrite A0 in H; congruence|]. rewrite E3. cbn [bind].
  destruct (merge_loop_ok 31 (set_ctrl h2 c3) lf0 fl i L V3 A0 C3) as (h4 & lf4 & fl4 & i4 & l4 & E4 & V4 & A4 & C4 & UH4 & NB4 & K4 & S4).
  { intros j M J. unfold lf0 in J. upd_case j i; [reflexivity|]. exfalso. exact (CL _ _ J). }
  { lia. }
  rewrite E4. cbn [bind]. destruct (link_ok _ _ _ _ _ _ V4 A4 C4 NB4) as (m & f & E5 & V5 & F5). rewrite E5.
  destruct K4 as (Z4 & N4 & T4 & L4 & FR4). change (mp_sz (set_ctrl h2 c3)) with (mp_sz h) in *. change (mp_n (set_ctrl h2 c3)) with (mp_n h) in *.
  eexists _, _, _. split; [reflexivity|]. split; [exact V5|]. split.
  { intros j M J. upd_case j i4; [discriminate|]. apply UH4 in J. contradiction. }
  cbn [mp_sz mp_n mp_mem mp_out mp_count set_free set_mem]. split; [exact Z4|]. split; [exact N4|].
  assert (LV : forall j M, upd lf4 i4 (Some (l4, Free)) j = Some (M, Live) <-> lf0 j = Some (M, Live)).
  { intros j M. rewrite <- L4. upd_case j i4; [|tauto]. rewrite A4. split; discriminate. }
  split; [intros M X'; apply LV in X'; congruence|]. split; [intros j M NE; rewrite LV; unfold lf0; rewrite upd_ne by exact NE; tauto|]. split.
  { intros j M a NE J R. assert (J0 : lf0 j = Some (M, Live)) by (unfold lf0; rewrite upd_ne by exact NE; exact J).
    transitivity (znth a (mp_mem h4)); [|exact (FR4 j M a J0 R)]. apply (F5 j M a); [apply L4; exact J0|rewrite Z4; exact R]. }
  unfold stats in T4. injection T4 as ? ? ? TO TC ? ? ?. rewrite TO, TC. split; [reflexivity|]. split; [reflexivity|].
  pose proof (leaf_rng _ _ _ _ V4 _ _ _ A4) as R4. rewrite fsum_upd by lia. rewrite zlen_cons. lia.
Qed.
