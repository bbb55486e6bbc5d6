From Coq Require Import Permutation.
From Verif Require Import CBase SeqLib HashmapProof MpliteModel MpliteSpec MpliteProof MpliteProof2 MpliteProof3 MpliteProof4 MpliteProof5.

Lemma atom_loop_ok k : 0 <= k <= 30 -> atom_loop 4 (2 ^ k) = Ret (2 ^ Z.max 3 k).
Proof.
  intro R. destruct (Z_lt_ge_dec k 3) as [LT|GE].
  - assert (k = 0 \/ k = 1 \/ k = 2) as [-> |[-> | ->]] by lia; reflexivity.
  - replace (Z.max 3 k) with k by lia. assert (8 <= 2 ^ k) by (change 8 with (2 ^ 3); apply Z.pow_le_mono_r; lia). cbn [atom_loop]. destruct (2 ^ k <? 8) eqn:E; [lia|reflexivity].
Qed.
Lemma init_ok buf size min : zlen buf = size -> 0 < size < two31 -> 0 < min <= 1073741824 ->
  exists h k, mplite_init (Some buf) size min = Ret (Some h) /\ mp_sz h = 2 ^ k /\ 2 ^ k = Z.max 8 (2 ^ Z.log2_up min) /\ mp_n h = size / (2 ^ k + 1) /\ cinv k h [].
Proof.
  intros LB RS RM. set (k := Z.max 3 (Z.log2_up min)). assert (UP : 0 <= Z.log2_up min <= 30) by (split; [apply Z.log2_up_nonneg|change 30 with (Z.log2_up 1073741824); apply Z.log2_up_le_mono; lia]).
  assert (P8 : 8 <= 2 ^ k) by (change 8 with (2 ^ 3); apply Z.pow_le_mono_r; lia).
  unfold mplite_init. destruct ((size <=? 0) || (min <=? 0)) eqn:E; [lia|]. unfold mplite_logarithm. rewrite log_loop_ok by lia. cbn [bind].
  rewrite Z.shiftl_mul_pow2, Z.mul_1_l by lia. pose proof (pow_le_30 (Z.log2_up min) UP). rewrite sint_Ret by (unfold two31; lia). cbn [bind]. rewrite atom_loop_ok by lia. cbn [bind]. fold k.
  set (n := size / (2 ^ k + 1)). assert (N0 : 0 <= n) by (apply Z.div_pos; lia). assert (NS : n * (2 ^ k + 1) <= size) by (pose proof (Z.mul_div_le size (2 ^ k + 1)); lia).
  destruct (mread_len buf 0 (n * 2 ^ k)) as (pool & -> & LP); [lia|nia|lia|]. cbn [bind]. destruct (mread_len buf (n * 2 ^ k) n) as (ctrl & -> & LC); [nia|lia|lia|]. cbn [bind].
  set (h0 := mk_mp (2 ^ k) n pool 0 0 0 0 0 0 0 0 (repeat (-1) 31) ctrl).
  assert (V0 : inv h0 0 (fun _ => None) (fun _ => [])).
  { constructor; cbn [mp_sz mp_n mp_mem mp_ctrl mp_free h0]; try assumption; try lia; try discriminate.
    - reflexivity.
    - split; try discriminate. lia.
    - constructor.
    - intros L i. split; [contradiction|discriminate].
    - intros L RL. unfold znth. destruct (L <? 0) eqn:?; [lia|]. rewrite nth_error_repeat by lia. reflexivity.
    - intro L. exact I. }
  destruct (init_loop_ok 30 h0 0 _ _ V0) as (h & lf & fl & E1 & V1 & F1 & S1 & Z1 & N1 & T1); [lia|discriminate|exists 0; reflexivity| |reflexivity|].
  { cbn [mp_n h0]. change (2 ^ (Z.of_nat 30 + 1)) with two31. nia. }
  rewrite E1. cbn [bind]. exists h, k. split; [reflexivity|]. split; [exact Z1|]. split.
  { unfold k. destruct (Z.max_spec 3 (Z.log2_up min)) as [[Q ->]|[Q ->]]; [pose proof (Z.pow_le_mono_r 2 3 (Z.log2_up min) ltac:(lia) ltac:(lia))|pose proof (Z.pow_le_mono_r 2 (Z.log2_up min) 3 ltac:(lia) ltac:(lia))]; change (2 ^ 3) with 8 in *; lia. }
  split; [exact N1|]. exists lf, fl. unfold stats in T1. injection T1 as ? ? ? TO TC ? ? ?. constructor.
  - exact V1.
  - intros i L A. apply F1 in A. discriminate.
  - unfold k. lia.
  - exact Z1.
  - constructor.
  - contradiction.
  - intros i L A. apply F1 in A. discriminate.
  - rewrite TO. reflexivity.
  - rewrite TC. reflexivity.
  - rewrite S1, Z1, N1. unfold total_live. cbn [fold_right h0 mp_n mp_sz]. lia.
Qed.

(** ** the amount of free memory *)
Lemma walk_ok h pv bs : 0 < bs -> forall l p fuel total, dseg (get_next h) pv p l (-1) -> (forall i, In i l -> 0 <= i) -> (length l < fuel)%nat -> 0 <= total -> total + bs * zlen l < two31 ->
  walk fuel h (hd (-1) l) bs total = Ret (total + bs * zlen l).
Proof.
  intro B. induction l as [|x l IH]; intros p fuel total D R F T0 T1.
  - destruct fuel; [cbn in F; lia|]. cbn. f_equal. unfold zlen. cbn. lia.
  - destruct fuel; [cbn in F; lia|]. cbn [hd walk]. pose proof (R x (or_introl eq_refl)). destruct (x =? -1) eqn:E; [lia|]. cbn [dseg] in D. destruct D as (D1 & D2 & D3). rewrite D1. cbn [bind].
    rewrite zlen_cons in *. pose proof (zlen_nonneg l). rewrite sint_Ret by (unfold two31 in *; nia). cbn [bind]. rewrite (IH x fuel (total + bs)); try assumption; try lia.
    + f_equal. lia.
    + intros i Hi. apply R. right; exact Hi.
    + cbn [length] in F. lia.
Qed.
Lemma fl_len h top lf fl L : inv h top lf fl -> zlen (fl L) <= mp_n h.
Proof.
  intro V. pose proof (v_top _ _ _ _ V). assert (length (fl L) <= length (map Z.of_nat (seq 0 (Z.to_nat (mp_n h)))))%nat as LE.
  { apply NoDup_incl_length; [apply V|]. intros i Hi. apply (fl_rng _ _ _ _ V) in Hi as (_ & _ & R & _). apply in_map_iff. exists (Z.to_nat i). split; [lia|]. apply in_seq. lia. }
  rewrite map_length, seq_length in LE. unfold zlen. lia.
Qed.
Lemma fsum_on_nonneg fl ls : (forall L, In L ls -> 0 <= L) -> 0 <= fsum_on ls fl.
Proof.
  intro R. induction ls as [|L ls IH]; [cbn; lia|]. unfold fsum_on in *. cbn [fold_right].
  specialize (IH (fun M HM => R M (or_intror HM))). pose proof (R L (or_introl eq_refl)). pose proof (pow_pos L). pose proof (zlen_nonneg (fl L)). nia.
Qed.
Lemma freemem_loop_ok h lf fl : inv h (mp_n h) lf fl -> forall j t, (j <= 31)%nat -> 0 <= t -> t + fsum_on (map Z.of_nat (seq (31 - j) j)) fl <= mp_n h ->
  freemem_loop j h t = Ret (t + fsum_on (map Z.of_nat (seq (31 - j) j)) fl).
Proof.
  intro V. pose proof (v_max _ _ _ _ V) as MX. pose proof (v_sz _ _ _ _ V) as SZ. pose proof (v_top _ _ _ _ V) as RT. assert (NB : mp_n h < two31) by nia.
  induction j as [|j IH]; intros t J T0 T1; [cbn; f_equal; lia|]. cbn [freemem_loop]. set (L := 30 - Z.of_nat j) in *. assert (RL : 0 <= L <= 30) by lia.
  replace (seq (31 - S j) (S j)) with ((31 - S j)%nat :: seq (31 - j) j) in * by (cbn [seq]; do 2 f_equal; lia). cbn [map] in *. unfold fsum_on in *. cbn [fold_right] in *.
  replace (Z.of_nat (31 - S j)) with L in * by lia. fold (fsum_on (map Z.of_nat (seq (31 - j) j)) fl) in *. pose proof (pow_pos L ltac:(lia)). pose proof (zlen_nonneg (fl L)).
  assert (0 <= fsum_on (map Z.of_nat (seq (31 - j) j)) fl) by (apply fsum_on_nonneg; intros M HM; apply in_map_iff in HM as (? & <- & _); lia).
  rewrite (mload_znth _ _ _ (v_head _ _ _ _ V L RL)). cbn [bind]. rewrite Z.shiftl_mul_pow2, Z.mul_1_l by lia.
  rewrite (walk_ok h (get_prev h) (2 ^ L) ltac:(lia) (fl L) (-1)); [|apply V|intros i Hi; apply (fl_rng _ _ _ _ V) in Hi; lia|pose proof (fl_len _ _ _ _ L V); unfold zlen in *; lia|lia|lia].
  cbn [bind]. rewrite IH by (try lia; nia). f_equal. lia.
Qed.
Lemma freemem_ok k h live : cinv k h live -> mplite_freemem h = Ret (mp_n h * mp_sz h - total_live live).
Proof.
  intros (lf & fl & V). pose proof (C_bound _ _ _ _ _ V) as (T1 & T2 & _). pose proof (c_sum _ _ _ _ _ V) as S. pose proof (c_inv _ _ _ _ _ V) as I. pose proof (v_sz _ _ _ _ I).
  unfold mplite_freemem. assert (fsum_on (map Z.of_nat (seq (31 - 31) 31)) fl = fsum fl) as EF by reflexivity. pose proof (fsum_nonneg fl).
  rewrite (freemem_loop_ok _ _ _ I 31 0 ltac:(lia) ltac:(lia)); rewrite EF; [|nia]. cbn [bind]. rewrite sint_Ret by (unfold two31 in *; nia). f_equal. lia.
Qed.

(** ** gaps and free blocks *)
Lemma gap_iff k h live lf fl e : C k h live lf fl -> 0 <= e -> (gap (mp_n h * mp_sz h) (mp_sz h * 2 ^ e) live <-> exists j M, lf j = Some (M, Free) /\ e <= M).
Proof.
  intros V RE. pose proof (c_inv _ _ _ _ _ V) as I. pose proof (v_sz _ _ _ _ I) as SZ. pose proof (pow_pos e RE) as PE. split.
  - intros (a & A0 & AM & AT & AB). apply Z.mod_divide in AM; [|nia]. destruct AM as [q AQ]. set (g := q * 2 ^ e).
    destruct (region_free _ _ (v_tile _ _ _ _ I) (v_co _ _ _ _ I) (Z.to_nat e) g) as (j & M & J & LM & _); rewrite ?Z2Nat.id by lia.
    + unfold g. nia.
    + exists q. reflexivity.
    + unfold g. nia.
    + intros j M t J NF. destruct t; [congruence| |exfalso; exact (c_clean _ _ _ _ _ V _ _ J)].
      destruct (c_live _ _ _ _ _ V _ _ J) as (b & B & PB). destruct (c_blk _ _ _ _ _ V b B) as (i' & L' & P' & A' & S' & _). assert (i' = j) as -> by (rewrite P' in PB; apply Z.mul_reg_r in PB; lia).
      rewrite J in A'. injection A' as <-. destruct (AB b B) as [X|X]; rewrite PB in X; [rewrite S' in X|]; unfold g; [left|right]; nia.
    + rewrite Z2Nat.id in LM by lia. exists j, M. split; assumption.
  - intros (j & M & J & LM). pose proof (leaf_rng _ _ _ _ I _ _ _ J) as (RM & RJ & RN & _ & [q DJ]).
    assert (PM : 2 ^ M = 2 ^ (M - e) * 2 ^ e) by (rewrite <- Z.pow_add_r by lia; f_equal; lia). pose proof (pow_pos (M - e) ltac:(lia)).
    exists (j * mp_sz h). split; [nia|]. split; [|split].
    + rewrite DJ, PM. replace (q * (2 ^ (M - e) * 2 ^ e) * mp_sz h) with (q * 2 ^ (M - e) * (mp_sz h * 2 ^ e)) by ring. apply Z.mod_mul. nia.
    + assert (2 ^ e <= 2 ^ M) by (apply Z.pow_le_mono_r; lia). nia.
    + intros b B. destruct (c_blk _ _ _ _ _ V b B) as (i & L & P & A & S & _). rewrite P, S. assert (2 ^ e <= 2 ^ M) by (apply Z.pow_le_mono_r; lia).
      destruct (t_disj _ _ (v_tile _ _ _ _ I) _ _ _ _ _ _ A J ltac:(intros ->; congruence)) as [X|X]; [left|right]; nia.
Qed.
Lemma fit_form k n : 3 <= k -> 1 <= n -> exists e, 0 <= e /\ fit (2 ^ k) n = 2 ^ k * 2 ^ e.
Proof. intros K N. exists (Z.max k (Z.log2_up n) - k). split; [lia|]. rewrite fit_pow by lia. rewrite <- Z.pow_add_r by lia. f_equal. lia. Qed.
Lemma malloc_iff k h live n : cinv k h live -> - two31 <= n < two31 ->
  exists h' r, mplite_malloc h n = Ret (h', r) /\ (r <> None <-> 0 < n <= 1073741824 /\ gap (mp_n h * mp_sz h) (fit (mp_sz h) n) live).
Proof.
  intros (lf & fl & V) RN. unfold mplite_malloc. destruct (Z.leb_spec n 0) as [LE|GT]; [exists h, None; split; [reflexivity|]; split; [congruence|lia]|].
  destruct (malloc_head _ _ _ _ _ n V RN) as (h' & r & E & N & R). exists h', r. split; [exact E|]. pose proof (c_k _ _ _ _ _ V) as CK. pose proof (pow_pos k ltac:(lia)) as PK.
  destruct (fit_form k n ltac:(lia) ltac:(lia)) as (e & RE & FE). rewrite (c_sz _ _ _ _ _ V) in *. pose proof (gap_iff _ _ _ _ _ e V RE) as GI. rewrite (c_sz _ _ _ _ _ V) in GI. rewrite <- FE in GI. rewrite GI.
  destruct r as [p|].
  - destruct R as (N1 & _ & j & M & J & LM). split; [|discriminate]. intros _. split; [lia|]. exists j, M. split; [exact J|]. rewrite FE in LM.
    pose proof (leaf_rng _ _ _ _ (c_inv _ _ _ _ _ V) _ _ _ J). apply (Z.pow_le_mono_r_iff 2); try lia. nia.
  - destruct R as (_ & NF). split; [congruence|]. intros (N1 & j & M & J & LM). exfalso. specialize (NF ltac:(lia) j M J). rewrite FE in NF.
    pose proof (Z.pow_le_mono_r 2 e M ltac:(lia) LM). nia.
Qed.
Lemma maxmem_loop_ok k h live lf fl : C k h live lf fl -> forall j, (j <= 31)%nat -> exists m, maxmem_loop j h = Ret m /\
  ((m = 0 /\ forall i M, lf i = Some (M, Free) -> Z.of_nat j <= M) \/ exists i M, lf i = Some (M, Free) /\ m = mp_sz h * 2 ^ M /\ forall i' M', lf i' = Some (M', Free) -> M' < Z.of_nat j -> M' <= M).
Proof.
  intro V. pose proof (c_inv _ _ _ _ _ V) as I. pose proof (v_sz _ _ _ _ I) as SZ. pose proof (C_bound _ _ _ _ _ V) as (_ & T2 & _).
  induction j as [|j IH]; intro J; cbn [maxmem_loop].
  - exists 0. split; [reflexivity|]. left. split; [reflexivity|]. intros i M A. apply (leaf_rng _ _ _ _ I) in A. lia.
  - destruct (head_hd _ _ _ _ (Z.of_nat j) I ltac:(lia)) as (x & E & X1 & X2). rewrite E. cbn [bind]. destruct (x =? -1) eqn:Q.
    + destruct (X1 ltac:(lia)) as [FN _]. assert (NF : forall i M, lf i = Some (M, Free) -> M <> Z.of_nat j) by (intros i M A ->; apply (v_in _ _ _ _ I) in A; rewrite FN in A; exact A).
      destruct (IH ltac:(lia)) as (m & EM & [[-> H]|(i & M & A & -> & H)]); [exists 0|eexists]; (split; [exact EM|]).
      * left. split; [reflexivity|]. intros i M A. pose proof (H i M A). pose proof (NF i M A). lia.
      * right. exists i, M. split; [exact A|]. split; [reflexivity|]. intros i' M' A' LT. pose proof (NF i' M' A'). apply (H i' M' A'). lia.
    + assert (0 <= x) as X0 by (destruct (Z_lt_ge_dec x 0); [destruct (X1 ltac:(lia)); lia|lia]). destruct (X2 X0) as (r & FX).
      assert (A : lf x = Some (Z.of_nat j, Free)) by (apply (v_in _ _ _ _ I); rewrite FX; left; reflexivity). pose proof (leaf_rng _ _ _ _ I _ _ _ A) as RA.
      pose proof (pow_pos (Z.of_nat j) ltac:(lia)). rewrite Z.shiftl_mul_pow2, Z.mul_1_l by lia. rewrite sint_Ret by (unfold two31 in *; nia).
      eexists. split; [reflexivity|]. right. exists x, (Z.of_nat j). split; [exact A|]. split; [lia|]. intros i' M' _ LT. lia.
Qed.
Lemma maxmem_ok k h live : cinv k h live -> exists m, mplite_maxmem h = Ret m /\ (m = 0 \/ gap (mp_n h * mp_sz h) m live) /\ forall e, 0 <= e -> gap (mp_n h * mp_sz h) (mp_sz h * 2 ^ e) live -> mp_sz h * 2 ^ e <= m.
Proof.
  intros (lf & fl & V). pose proof (c_inv _ _ _ _ _ V) as I. pose proof (v_sz _ _ _ _ I). destruct (maxmem_loop_ok _ _ _ _ _ V 31 ltac:(lia)) as (m & E & R). exists m. split; [exact E|].
  destruct R as [[-> R]|(i & M & A & -> & R)].
  - split; [left; reflexivity|]. intros e RE G. apply (gap_iff _ _ _ _ _ e V RE) in G as (j & M & J & _). exfalso. pose proof (R j M J). apply (leaf_rng _ _ _ _ I) in J. lia.
  - pose proof (leaf_rng _ _ _ _ I _ _ _ A) as RA. split.
    + right. apply (gap_iff _ _ _ _ _ M V ltac:(lia)). exists i, M. split; [exact A|lia].
    + intros e RE G. apply (gap_iff _ _ _ _ _ e V RE) in G as (j & M' & J & LE). pose proof (leaf_rng _ _ _ _ I _ _ _ J) as RJ. pose proof (R j M' J ltac:(lia)).
      assert (2 ^ e <= 2 ^ M) by (apply Z.pow_le_mono_r; lia). nia.
Qed.

(** ** an empty pool has one shape *)
Definition all_free (lf : leaves) : Prop := forall i L s, lf i = Some (L, s) -> s = Free.
Definition coal (lf : leaves) : Prop := forall i L, lf i = Some (L, Free) -> lf (buddy L i) = Some (L, Free) -> False.
Lemma one_shape n lf lf' : tiling n lf -> tiling n lf' -> all_free lf -> all_free lf' -> coal lf -> coal lf' -> forall i L, lf i = Some (L, Free) -> lf' i = Some (L, Free).
Proof.
  intros T T' F F' CO CO' i L A. destruct (t_leaf _ _ T _ _ _ A) as (RL & RI & DI & RN). pose proof (pow_pos L ltac:(lia)).
  destruct (region_free _ _ T' CO' (Z.to_nat L) i RI) as (j & M & J & LM & J1 & J2); rewrite ?Z2Nat.id in * by lia; try assumption; [intros ? ? ? X NX; apply F' in X; congruence|].
  destruct (t_leaf _ _ T' _ _ _ J) as (RM & RJ & DJ & RNJ). pose proof (pow_pos M ltac:(lia)).
  destruct (region_free _ _ T CO (Z.to_nat M) j RJ) as (x & N & X & LN & X1 & X2); rewrite ?Z2Nat.id in * by lia; try assumption; [intros ? ? ? Y NY; apply F in Y; congruence|].
  assert (i = x) as <-. { apply (leaf_at _ _ T i i L Free x N Free A X); lia. }
  rewrite A in X. injection X as <-. assert (M = L) as -> by lia. assert (j = i) as -> by lia. exact J.
Qed.
Lemma one_level n lf : tiling n lf -> all_free lf -> coal lf -> forall i j L, lf i = Some (L, Free) -> lf j = Some (L, Free) -> i < j -> False.
Proof.
  intros T F CO i j L A B LT. destruct (t_leaf _ _ T _ _ _ A) as (RL & RI & DI & RN). destruct (t_leaf _ _ T _ _ _ B) as (_ & RJ & DJ & RNJ). pose proof (pow_pos L ltac:(lia)) as PL.
  pose proof (parent i L ltac:(lia) DI) as (P1 & P2 & P3 & _ & _ & _ & _ & P8 & _). specialize (P8 RI). set (p := if Z.odd (i / 2 ^ L) then i - 2 ^ L else i) in *.
  destruct (t_disj _ _ T _ _ _ _ _ _ A B ltac:(lia)) as [X|X]; [|lia].
  assert (PB : p + 2 ^ (L + 1) <= n) by (rewrite pow_S in * by lia; lia).
  destruct (region_free _ _ T CO (Z.to_nat (L + 1)) p P8) as (x & M & Y & LM & Y1 & Y2); rewrite ?Z2Nat.id in * by lia; try assumption; [intros ? ? ? W NW; apply F in W; congruence|].
  assert (i = x) as <-. { apply (leaf_at _ _ T i i L Free x M Free A Y); lia. } rewrite A in Y. injection Y as <-. lia.
Qed.
Lemma one_list h lf fl L : inv h (mp_n h) lf fl -> all_free lf -> forall x, In x (fl L) -> fl L = [x].
Proof.
  intros V F x X. pose proof (v_nd _ _ _ _ V L) as ND. assert (U : forall y, In y (fl L) -> y = x).
  { intros y Y. apply (v_in _ _ _ _ V) in X, Y. destruct (Z_lt_ge_dec x y); [exfalso; eapply (one_level _ _ (v_tile _ _ _ _ V) F (v_co _ _ _ _ V)); [exact X|exact Y|assumption]|].
    destruct (Z_lt_ge_dec y x); [exfalso; eapply (one_level _ _ (v_tile _ _ _ _ V) F (v_co _ _ _ _ V)); [exact Y|exact X|assumption]|lia]. }
  destruct (fl L) as [|a [|b l]]; [contradiction|f_equal; apply U; left; reflexivity|]. exfalso. inversion_clear ND as [|? ? NI _]. apply NI. left. rewrite (U a), (U b); [reflexivity|right; left; reflexivity|left; reflexivity].
Qed.
Lemma znth_ext {A} (a b : list A) : zlen a = zlen b -> (forall i, 0 <= i < zlen a -> znth i a = znth i b) -> a = b.
Proof.
  revert b. induction a as [|x a IH]; intros b LE E.
  - destruct b; [reflexivity|]. rewrite zlen_cons in LE. pose proof (zlen_nonneg b). unfold zlen in LE. cbn in LE. lia.
  - destruct b as [|y b]; [rewrite zlen_cons in LE; pose proof (zlen_nonneg a); unfold zlen in LE; cbn in LE; lia|]. rewrite !zlen_cons in *. pose proof (zlen_nonneg a). f_equal.
    + specialize (E 0 ltac:(lia)). change (Some x = Some y) in E. congruence.
    + apply IH; [lia|]. intros i R. specialize (E (i + 1) ltac:(lia)). unfold znth in *. destruct (i + 1 <? 0) eqn:?; [lia|]. destruct (i <? 0) eqn:?; [lia|].
      replace (Z.to_nat (i + 1)) with (S (Z.to_nat i)) in E by lia. exact E.
Qed.
Lemma empty_free k h h0 : cinv k h [] -> cinv k h0 [] -> mp_n h = mp_n h0 -> mp_free h = mp_free h0.
Proof.
  intros (lf & fl & V) (lf0 & fl0 & V0) N. pose proof (c_inv _ _ _ _ _ V) as I. pose proof (c_inv _ _ _ _ _ V0) as I0.
  assert (F : all_free lf). { intros i L s A. destruct s; [reflexivity| |exfalso; exact (c_clean _ _ _ _ _ V _ _ A)]. destruct (c_live _ _ _ _ _ V _ _ A) as (b & [] & _). }
  assert (F0 : all_free lf0). { intros i L s A. destruct s; [reflexivity| |exfalso; exact (c_clean _ _ _ _ _ V0 _ _ A)]. destruct (c_live _ _ _ _ _ V0 _ _ A) as (b & [] & _). }
  pose proof (v_tile _ _ _ _ I) as T. pose proof (v_tile _ _ _ _ I0) as T0. rewrite N in T.
  apply znth_ext; [rewrite (v_hdl _ _ _ _ I), (v_hdl _ _ _ _ I0); reflexivity|]. rewrite (v_hdl _ _ _ _ I). intros L R. rewrite (v_head _ _ _ _ I L), (v_head _ _ _ _ I0 L) by lia. f_equal.
  destruct (fl L) as [|x r] eqn:E.
  - destruct (fl0 L) as [|y r] eqn:E0; [reflexivity|]. exfalso. assert (In y (fl L)) as Y; [|rewrite E in Y; exact Y]. apply (v_in _ _ _ _ I).
    apply (one_shape _ _ _ T0 T F0 F (v_co _ _ _ _ I0) (v_co _ _ _ _ I)). apply (v_in _ _ _ _ I0). rewrite E0. left; reflexivity.
  - assert (In x (fl0 L)) as X. { apply (v_in _ _ _ _ I0). apply (one_shape _ _ _ T T0 F F0 (v_co _ _ _ _ I) (v_co _ _ _ _ I0)). apply (v_in _ _ _ _ I). rewrite E. left; reflexivity. }
    rewrite (one_list _ _ _ _ I0 F0 _ X). reflexivity.
Qed.

(** ** histories *)
Lemma reach_cinv k h0 h live : cinv k h0 [] -> reach h0 h live -> cinv k h live /\ mp_n h = mp_n h0 /\ mp_sz h = mp_sz h0.
Proof.
  intros C0 R. induction R as [|h live o h' r R IH OK E]; [split; [exact C0|split; reflexivity]|]. destruct IH as (CI & N & Z).
  assert (K0 : mp_sz h0 = 2 ^ k) by (destruct C0 as (? & ? & V); apply V).
  destruct (step_ok k h live o CI OK) as (h1 & r1 & E1 & C1 & N1). rewrite E in E1. injection E1 as <- <-. rewrite K0. split; [exact C1|]. split; [congruence|]. destruct C1 as (? & ? & V). apply V.
Qed.
