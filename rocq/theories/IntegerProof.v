From Verif Require Import CBase IntegerModel IntegerSpec RingBuffer2Model RingBuffer2Proof.

Lemma int_is_pow2_spec i : 0 <= i < two32 ->
  integer_is_power_of_two i = true <-> (power_of_two i /\ i <> 1).
Proof.
  intro H. change (integer_is_power_of_two i) with (is_power_of_2 i).
  rewrite is_power_of_2_spec by exact H. unfold is_pow2, power_of_two. split.
  - intros [k [Hk E]]. split; [exists k; lia|]. subst.
    assert (2 ^ 1 <= 2 ^ k) by (apply Z.pow_le_mono_r; lia). lia.
  - intros [[k [Hk E]] N]. exists k. split; [|exact E].
    assert (k <> 0) by (intros ->; apply N; exact E).
    assert (k < 32); [|lia].
    apply (Z.pow_lt_mono_r_iff 2); [lia|lia|]. unfold two32 in H. change (2^32) with 4294967296. lia.
Qed.

(** smearing: bit j of x is set iff one of the w bits j, j+1, ... of i is set *)
Definition smeared (i x w : Z) : Prop :=
  forall j, 0 <= j -> Z.testbit x j = true <-> exists t, 0 <= t < w /\ Z.testbit i (j + t) = true.

Lemma smear_step i x w : 0 < w -> smeared i x w -> smeared i (Z.lor x (Z.shiftr x w)) (w + w).
Proof.
  intros Hw S j Hj. rewrite Z.lor_spec, Z.shiftr_spec by lia. rewrite orb_true_iff.
  rewrite (S j), (S (j + w)) by lia. split.
  - intros [[t [Ht E]]|[t [Ht E]]]; [exists t|exists (t + w)]; (split; [lia|]);
      [exact E|rewrite <- E; f_equal; lia].
  - intros [t [Ht E]]. destruct (Z_lt_dec t w).
    + left; exists t; split; [lia|exact E].
    + right; exists (t - w); split; [lia|rewrite <- E; f_equal; lia].
Qed.

Lemma smear_full i x : 0 < i < two32 -> 0 <= x -> smeared i x 32 -> x = 2 ^ (Z.log2 i + 1) - 1.
Proof.
  intros Hi Hx S. rewrite Z.sub_1_r, <- Z.ones_equiv. apply Z.bits_inj'. intros j Hj.
  assert (Z.log2 i < 32) as L by (apply Z.log2_lt_pow2; unfold two32 in Hi; lia).
  pose proof (Z.log2_nonneg i).
  apply eq_true_iff_eq. rewrite (S j Hj). rewrite Z.testbit_ones_nonneg by lia. rewrite Z.ltb_lt. split.
  - intros [t [Ht E]]. destruct (Z_lt_dec j (Z.log2 i + 1)); [lia|].
    rewrite Z.bits_above_log2 in E by lia. discriminate.
  - intro J. exists (Z.log2 i - j). split; [lia|].
    replace (j + (Z.log2 i - j)) with (Z.log2 i) by lia. apply Z.bit_log2; lia.
Qed.

Lemma roundup_eq i : 0 < i < two32 -> integer_is_power_of_two i = false ->
  integer_roundup_pow_of_two i = u32 (2 ^ (Z.log2 i + 1)).
Proof.
  intros H P. unfold integer_roundup_pow_of_two. destruct (i <? 1) eqn:E; [lia|]. rewrite P.
  cbv zeta.
  assert (S0 : smeared i i 1).
  { intros j Hj. split; [intro T; exists 0; split; [lia|rewrite Z.add_0_r; exact T]|].
    intros [t [Ht T]]. replace (j + t) with j in T by lia. exact T. }
  pose proof (smear_step i _ 1 ltac:(lia) S0) as S1.
  pose proof (smear_step i _ 2 ltac:(lia) S1) as S2.
  pose proof (smear_step i _ 4 ltac:(lia) S2) as S3.
  pose proof (smear_step i _ 8 ltac:(lia) S3) as S4.
  pose proof (smear_step i _ 16 ltac:(lia) S4) as S5.
  cbn [Z.add] in S5.
  assert (forall x k, 0 <= x -> 0 <= Z.lor x (Z.shiftr x k)) as NN.
  { intros x k Hx. apply Z.lor_nonneg. split; [exact Hx|]. apply Z.shiftr_nonneg; exact Hx. }
  pose proof (fun h => smear_full i _ H h S5) as E5.
  rewrite E5; [rewrite Z.sub_add; reflexivity|]. do 5 apply NN. lia.
Qed.

Lemma pow2_le_log2 i q : 0 < i -> power_of_two q -> q <= i -> q <= 2 ^ Z.log2 i.
Proof.
  intros Hi [k [Hk ->]] L. apply Z.pow_le_mono_r; [lia|].
  rewrite <- (Z.log2_pow2 k Hk). apply Z.log2_le_mono; exact L.
Qed.
Lemma pow2_gt_log2 i q : 0 < i -> power_of_two q -> 2 ^ Z.log2 i < q -> 2 ^ (Z.log2 i + 1) <= q.
Proof.
  intros Hi [k [Hk ->]] L. apply Z.pow_le_mono_r; [lia|].
  apply Z.pow_lt_mono_r_iff in L; lia.
Qed.
Lemma log2_bounds i : 0 < i -> 2 ^ Z.log2 i <= i < 2 ^ (Z.log2 i + 1).
Proof. intro H. pose proof (Z.log2_spec i H). unfold Z.succ in *. lia. Qed.
Lemma power_log2 i : power_of_two (2 ^ Z.log2 i).
Proof. exists (Z.log2 i). split; [apply Z.log2_nonneg|reflexivity]. Qed.
Lemma log2_hi i : 2147483648 < i < two32 -> Z.log2 i = 31.
Proof. intro H. apply Z.log2_unique; [lia|]. unfold two32 in H. split; [change (2^31) with 2147483648|change (2^(Z.succ 31)) with 4294967296]; lia. Qed.
Lemma log2_lo i : 0 < i < 2147483648 -> Z.log2 i <= 30.
Proof. intro H. assert (Z.log2 i < 31); [|lia]. apply Z.log2_lt_pow2; [lia|]. change (2^31) with 2147483648; lia. Qed.
Lemma not_pow_log2 i : 0 < i < two32 -> integer_is_power_of_two i = false -> i <> 1 -> 2 ^ Z.log2 i < i.
Proof.
  intros H P N. pose proof (log2_bounds i ltac:(lia)).
  destruct (Z.eq_dec (2 ^ Z.log2 i) i) as [E|]; [|lia].
  assert (integer_is_power_of_two i = true); [|congruence].
  apply int_is_pow2_spec; [lia|]. split; [|exact N]. rewrite <- E; apply power_log2.
Qed.
Lemma roundup_no_wrap i : 0 < i < 2147483648 -> integer_is_power_of_two i = false ->
  integer_roundup_pow_of_two i = 2 ^ (Z.log2 i + 1).
Proof.
  intros H P. unfold two32 in *. rewrite roundup_eq by (unfold two32; try lia; exact P).
  apply u32_small. pose proof (log2_lo i ltac:(lia)). pose proof (Z.log2_nonneg i).
  split; [apply Z.pow_nonneg; lia|].
  unfold two32. change 4294967296 with (2^32). apply Z.pow_lt_mono_r; lia.
Qed.
Lemma pow2_true_eq i : integer_is_power_of_two i = true -> 0 < i -> integer_roundup_pow_of_two i = i.
Proof. intros P H. unfold integer_roundup_pow_of_two. destruct (i <? 1) eqn:E; [lia|]. rewrite P; reflexivity. Qed.
Lemma is_pow2_2p31 : integer_is_power_of_two 2147483648 = true. Proof. reflexivity. Qed.

Lemma roundup_lemma i : 2 <= i <= 2147483648 -> least_pow2_above i (integer_roundup_pow_of_two i).
Proof.
  intro H. assert (0 < i < two32) as Hi by (unfold two32; lia).
  destruct (integer_is_power_of_two i) eqn:P.
  - rewrite pow2_true_eq by (try exact P; lia). apply int_is_pow2_spec in P; [|lia].
    split; [apply P|]. split; [lia|intros; lia].
  - assert (i <> 2147483648) by (intros ->; rewrite is_pow2_2p31 in P; discriminate).
    rewrite roundup_no_wrap by (try exact P; lia).
    pose proof (log2_bounds i ltac:(lia)). pose proof (not_pow_log2 i Hi P ltac:(lia)).
    split; [exists (Z.log2 i + 1); pose proof (Z.log2_nonneg i); lia|]. split; [lia|].
    intros q Hq L. apply pow2_gt_log2; [lia|exact Hq|lia].
Qed.
Lemma roundup_edges : integer_roundup_pow_of_two 0 = 0 /\ integer_roundup_pow_of_two 1 = 2 /\
  forall i, 2147483648 < i < two32 -> integer_roundup_pow_of_two i = 0.
Proof.
  split; [reflexivity|]. split; [reflexivity|]. intros i H.
  assert (integer_is_power_of_two i = false) as P.
  { destruct (integer_is_power_of_two i) eqn:P; [|reflexivity].
    apply int_is_pow2_spec in P; [|unfold two32 in *; lia]. destruct P as [[k [Hk E]] _].
    pose proof (log2_hi i H) as L. rewrite E, Z.log2_pow2 in L by lia. subst k.
    change (2^31) with 2147483648 in E. lia. }
  rewrite roundup_eq by (try exact P; unfold two32 in *; lia). rewrite log2_hi by exact H. reflexivity.
Qed.
Lemma rounddown_lemma i : 2 <= i <= 2147483648 -> greatest_pow2_below i (integer_rounddown_pow_of_two i).
Proof.
  intro H. assert (0 < i < two32) as Hi by (unfold two32; lia).
  unfold integer_rounddown_pow_of_two. destruct (i <? 2) eqn:E; [lia|]. cbv zeta.
  destruct (integer_is_power_of_two i) eqn:P.
  - rewrite pow2_true_eq by (try exact P; lia). rewrite Z.eqb_refl.
    apply int_is_pow2_spec in P; [|lia]. split; [apply P|]. split; [lia|intros; lia].
  - assert (i <> 2147483648) by (intros ->; rewrite is_pow2_2p31 in P; discriminate).
    rewrite roundup_no_wrap by (try exact P; lia).
    pose proof (log2_bounds i ltac:(lia)).
    destruct (2 ^ (Z.log2 i + 1) =? i) eqn:E2; [lia|].
    rewrite Z.shiftr_div_pow2 by lia.
    rewrite Z.pow_add_r, Z.div_mul by (try apply Z.log2_nonneg; lia).
    split; [apply power_log2|]. split; [lia|]. intros q Hq L. apply pow2_le_log2; [lia|exact Hq|lia].
Qed.
Lemma rounddown_edges : integer_rounddown_pow_of_two 0 = 0 /\ integer_rounddown_pow_of_two 1 = 0 /\
  forall i, 2147483648 < i < two32 ->
    greatest_pow2_below i 2147483648 /\ integer_rounddown_pow_of_two i = 0.
Proof.
  split; [reflexivity|]. split; [reflexivity|]. intros i H. split.
  - pose proof (log2_hi i H) as L. split; [exists 31; split; [lia|reflexivity]|]. split; [lia|].
    intros q Hq LL. pose proof (pow2_le_log2 i q ltac:(unfold two32 in *; lia) Hq LL) as B.
    rewrite L in B. exact B.
  - unfold integer_rounddown_pow_of_two. destruct (i <? 2) eqn:E; [lia|]. cbv zeta.
    rewrite (proj2 (proj2 roundup_edges) i H). destruct (0 =? i) eqn:E0; [lia|reflexivity].
Qed.
