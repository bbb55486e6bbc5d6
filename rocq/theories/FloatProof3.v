(** What is read back *)
From Coq Require Import Lqa.
From Verif Require Import CBase CStr SeqLib StrParamsModel StrParamsSpec StrParamsProof StrParamsProof2 FloatModel FloatSpec FloatProof FloatProof2.
Open Scope Z_scope.

Definition tenth (x : fl) : Z := nearest (mag x * inject_Z (10 ^ 10)).
Lemma tenth_nonneg x : 0 <= mant x -> 0 <= tenth x.
Proof. intro H. apply nearest_nonneg, Qmult_le_0_compat; [apply mag_nonneg; auto|]. discriminate. Qed.
Lemma q_frac n j : 0 <= j -> ((n # Z.to_pos (10 ^ j)) * inject_Z (10 ^ j) == inject_Z n)%Q.
Proof. intro H. assert (0 < 10 ^ j) by (apply Z.pow_pos_nonneg; lia). unfold Qeq, Qmult, inject_Z. cbn [Qnum Qden]. rewrite Pos.mul_1_r, Z2Pos.id by auto. lia. Qed.
Lemma sg_len b : zlen (sg b) = 0 \/ zlen (sg b) = 1. Proof. destruct b; cbn; auto. Qed.
Lemma decimal_ne n : 0 <= n -> decimal n <> []. Proof. intro H. destruct (decimal_ok n H) as (_ & _ & c & r & -> & _). discriminate. Qed.
Lemma dv_decimal n : 0 <= n -> dv 0 (decimal n) = n. Proof. intro H. apply (decimal_ok n H). Qed.
Lemma dig_decimal n : 0 <= n -> dig (decimal n). Proof. intro H. apply (decimal_ok n H). Qed.

Lemma ztake_app_r n (l1 l2 : list Z) : zlen l1 <= n -> ztake n (l1 ++ l2) = l1 ++ ztake (n - zlen l1) l2.
Proof. intro H. rewrite ztake_app, ztake_all by auto. reflexivity. Qed.
Lemma read_small x : 0 <= mant x -> tenth x < 10 ^ 29 -> exists v, strtod (ztake 31 (fmt10 x)) = (round_double (neg x) v, zlen (ztake 31 (fmt10 x))) /\ (v * inject_Z (10 ^ 10) == inject_Z (tenth x))%Q /\ ztake 31 (fmt10 x) <> [].
Proof.
  intros M U. pose proof (tenth_nonneg x M) as N0. destruct (fmt10_shape x) as (n & En & ->). change (n = tenth x) in En. rewrite <- En in *. clear En.
  assert (D : 0 <= n / 10 ^ 10 < 10 ^ Z.of_nat 19) by (split; [apply Z.div_pos; lia|apply Z.div_lt_upper_bound; lia]).
  pose proof (decimal_len _ 18 D) as L. pose proof (sg_len (neg x)) as S. rewrite ztake_all by (rewrite !zlen_app, zlen_cons, zlen_pad; lia).
  rewrite (strtod_ok (neg x) (decimal (n / 10 ^ 10)) (pad 10 (n mod 10 ^ 10))); [|apply dig_decimal; lia|apply decimal_ne; lia|apply pad_dig|right; auto].
  eexists. split; [reflexivity|]. split; [|intro C; apply (decimal_ne (n / 10 ^ 10)); [lia|]; destruct (decimal (n / 10 ^ 10)); [auto|destruct (sg (neg x)); discriminate]].
  rewrite zlen_pad. change (Z.of_nat 10) with 10. rewrite q_frac by lia. rewrite dv_app, dv_acc, dv_decimal, zlen_pad, pad_val by (try apply Z.mod_pos_bound; lia).
  change (Z.of_nat 10) with 10. rewrite (Z.mul_comm (n / 10 ^ 10)), <- Z.div_mod by lia. reflexivity.
Qed.
Lemma take_zero j k : ztake j (repeat 48 k) = repeat 48 (Nat.min (Z.to_nat j) k).
Proof. unfold ztake. generalize (Z.to_nat j). intro m. revert m. induction k as [|k IH]; intros [|m]; cbn; try reflexivity. rewrite IH. reflexivity. Qed.
Lemma dv_zero k acc : dv acc (repeat 48 k) = acc * 10 ^ Z.of_nat k.
Proof.
  revert acc. induction k as [|k IH]; intro acc; [cbn; lia|]. change (dv acc (repeat 48 (S k))) with (dv (acc * 10 + (48 - 48)) (repeat 48 k)). rewrite IH. replace (Z.of_nat (S k)) with (1 + Z.of_nat k) by lia. rewrite Z.pow_add_r, Z.pow_1_r by lia. ring.
Qed.
Lemma dig_repeat k : dig (repeat 48 k). Proof. induction k; constructor; auto; lia. Qed.
Lemma read_whole x : 0 <= mant x -> tenth x mod 10 ^ 10 = 0 -> tenth x < 10 ^ 40 -> exists v, strtod (ztake 31 (fmt10 x)) = (round_double (neg x) v, zlen (ztake 31 (fmt10 x))) /\ (v * inject_Z (10 ^ 10) == inject_Z (tenth x))%Q /\ ztake 31 (fmt10 x) <> [].
Proof.
  intros M W U. pose proof (tenth_nonneg x M) as N0. destruct (fmt10_shape x) as (n & En & ->). change (n = tenth x) in En. rewrite <- En in *. clear En. rewrite W, pad_zero.
  assert (D : 0 <= n / 10 ^ 10 < 10 ^ Z.of_nat 30) by (split; [apply Z.div_pos; lia|apply Z.div_lt_upper_bound; lia]).
  pose proof (decimal_len _ 29 D) as L. pose proof (sg_len (neg x)) as S. set (ds := decimal (n / 10 ^ 10)) in *.
  assert (ND : ds <> []) by (apply decimal_ne; lia). assert (DD : dig ds) by (apply dig_decimal; lia). pose proof (zlen_nonneg ds).
  assert (NE : forall tl, sg (neg x) ++ ds ++ tl <> []). { intros tl C. apply ND. destruct ds; [auto|destruct (sg (neg x)); discriminate]. }
  assert (T : exists k tl, ztake 31 (sg (neg x) ++ ds ++ 46 :: repeat 48 10) = sg (neg x) ++ ds ++ tl /\ (tl = [] /\ repeat 48 k = [] \/ tl = 46 :: repeat 48 k)).
  { rewrite (app_assoc (sg (neg x))). destruct (Z.eq_dec (zlen (sg (neg x) ++ ds)) 31) as [E|E].
    - exists 0%nat, []. split; [|left; auto]. rewrite <- E, ztake_app_len, app_nil_r. reflexivity.
    - rewrite zlen_app in E. exists (Nat.min (Z.to_nat (30 - zlen (sg (neg x)) - zlen ds)) 10), (46 :: ztake (30 - zlen (sg (neg x)) - zlen ds) (repeat 48 10)). split; [|right; rewrite take_zero; reflexivity].
      rewrite ztake_app_r by (rewrite zlen_app; lia). rewrite zlen_app. rewrite ztake_cons by lia. rewrite <- app_assoc. do 4 f_equal. lia. }
  destruct T as (k & tl & -> & T). rewrite (strtod_ok (neg x) ds (repeat 48 k) tl DD ND (dig_repeat k) T). eexists. split; [reflexivity|]. split; [|apply NE].
  rewrite zlen_repeat, dv_app, dv_zero. unfold ds. rewrite dv_decimal by lia. set (d := n / 10 ^ 10) in *. assert (EN : n = d * 10 ^ 10) by (unfold d; rewrite Z.mul_comm; apply Z_div_exact_full_2; lia).
  rewrite EN, inject_Z_mult. apply Qmult_comp; [|reflexivity]. assert (P : 0 < 10 ^ Z.of_nat k) by (apply Z.pow_pos_nonneg; lia). unfold Qeq, inject_Z. cbn [Qnum Qden]. rewrite Z2Pos.id by auto. lia.
Qed.
Lemma read_cut x : 0 <= mant x -> 10 ^ 41 <= tenth x -> exists N, strtod (ztake 31 (fmt10 x)) = (round_double (neg x) (N # 1), zlen (ztake 31 (fmt10 x))) /\ 0 <= 10 * N <= tenth x / 10 ^ 10 /\ 0 < N /\ ztake 31 (fmt10 x) <> [].
Proof.
  intros M W. destruct (fmt10_shape x) as (n & En & ->). change (n = tenth x) in En. rewrite <- En in *. clear En.
  assert (D : 10 ^ 31 <= n / 10 ^ 10) by (apply Z.div_le_lower_bound; lia).
  pose proof (decimal_len_ge _ 31 ltac:(lia) D) as L. pose proof (sg_len (neg x)) as S. set (d := n / 10 ^ 10) in *. set (ds := decimal d) in *.
  assert (DD : dig ds) by (apply dig_decimal; lia). assert (V : dv 0 ds = d) by (apply dv_decimal; lia).
  set (j := 31 - zlen (sg (neg x))). assert (J : 30 <= j <= 31) by (unfold j; lia).
  assert (T : ztake 31 (sg (neg x) ++ ds ++ 46 :: pad 10 (n mod 10 ^ 10)) = sg (neg x) ++ ztake j ds ++ []).
  { rewrite ztake_app_r by lia. fold j. rewrite app_nil_r. f_equal. apply ztake_app_l. lia. }
  rewrite T. assert (LT : zlen (ztake j ds) = j) by (apply zlen_ztake; lia).
  assert (NT : ztake j ds <> []) by (intro C; rewrite C, zlen_nil in LT; lia).
  rewrite (strtod_ok (neg x) (ztake j ds) [] []); [|apply dig_take; auto|auto|constructor|left; auto]. rewrite (app_nil_r (ztake j ds)). change (zlen (@nil Z)) with 0. change (Z.to_pos (10 ^ 0)) with 1%positive.
  eexists. split; [reflexivity|]. pose proof (ztake_zdrop j ds) as E. assert (V2 : dv 0 (ztake j ds ++ zdrop j ds) = d) by (rewrite E; auto). rewrite dv_app, dv_acc in V2.
  assert (DZ : dig (zdrop j ds)). { assert (DE : dig (ztake j ds ++ zdrop j ds)) by (rewrite E; auto). apply Forall_app in DE. apply DE. } pose proof (dv_range _ DZ) as R1. pose proof (dv_range _ (dig_take j ds DD)) as R2.
  assert (LZ : zlen (zdrop j ds) = zlen ds - j) by (apply zlen_zdrop; lia).
  assert (P : 10 <= 10 ^ zlen (zdrop j ds)) by (rewrite <- (Z.pow_1_r 10) at 1; apply Z.pow_le_mono_r; lia).
  split; [|split].
  - nia.
  - destruct (Z.eq_dec (dv 0 (ztake j ds)) 0) as [C|C]; [|lia]. exfalso.
    destruct (decimal_ok d ltac:(lia)) as (_ & _ & c & r & EC & NC). fold ds in EC. specialize (NC ltac:(lia)). rewrite EC in C. rewrite ztake_cons in C by lia. change (dv 0 (c :: ztake (j - 1) r)) with (dv (0 * 10 + (c - 48)) (ztake (j - 1) r)) in C.
    rewrite dv_acc in C. assert (DR : dig (c :: r)) by (rewrite <- EC; auto). inversion_clear DR as [|? ? RC DR']. pose proof (dv_range _ (dig_take (j - 1) r DR')) as R3.
    assert (0 < 10 ^ zlen (ztake (j - 1) r)) by (apply Z.pow_pos_nonneg; [lia|apply zlen_nonneg]). nia.
  - intro C. apply NT. destruct (ztake j ds); [auto|destruct (sg (neg x)); discriminate].
Qed.
