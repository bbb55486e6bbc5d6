(** Rounding *)
From Coq Require Import Lqa.
From Verif Require Import CBase CStr FloatModel.
Open Scope Q_scope.

Lemma two_nz : ~ 2#1 == 0. Proof. discriminate. Qed.
Lemma two_gt1 : 1 < 2#1. Proof. reflexivity. Qed.
Lemma pow2_pos e : 0 < pow2 e. Proof. apply Qpower_0_lt. reflexivity. Qed.
Lemma pow2_add a b : pow2 (a + b) == pow2 a * pow2 b. Proof. apply Qpower_plus, two_nz. Qed.
Lemma pow2_S a : pow2 (a + 1) == 2 * pow2 a. Proof. rewrite pow2_add. change (pow2 1) with (2#1). lra. Qed.
Lemma pow2_pred a : 2 * pow2 (a - 1) == pow2 a. Proof. rewrite <- pow2_S. replace (a - 1 + 1)%Z with a by lia. reflexivity. Qed.
Lemma pow2_Z a : (0 <= a)%Z -> pow2 a == inject_Z (2 ^ a). Proof. intro H. unfold pow2. rewrite Zpower_Qpower by auto. reflexivity. Qed.
Lemma pow2_le a b : (a <= b)%Z -> pow2 a <= pow2 b.
Proof. intro H. destruct (Z.eq_dec a b) as [->|N]; [apply Qle_refl|]. apply Qlt_le_weak, Qpower_lt_compat_l; [lia|apply two_gt1]. Qed.
Lemma pow2_lt_inv a b : pow2 a < pow2 b -> (a < b)%Z. Proof. intro H. eapply Qpower_lt_compat_l_inv; [exact H|apply two_gt1]. Qed.

Lemma inj_lt a b : (a < b)%Z <-> inject_Z a < inject_Z b. Proof. rewrite Zlt_Qlt. reflexivity. Qed.
Lemma inj_le a b : (a <= b)%Z <-> inject_Z a <= inject_Z b. Proof. rewrite Zle_Qle. reflexivity. Qed.
(** ** nearest *)
Lemma floor_lt q : q < inject_Z (Qfloor q) + 1.
Proof. pose proof (Qlt_floor q) as H. rewrite inject_Z_plus in H. exact H. Qed.
Lemma nearest_cases q : let f := Qfloor q in
  (nearest q = f /\ q - inject_Z f <= 1#2) \/ (nearest q = (f + 1)%Z /\ 1#2 <= q - inject_Z f).
Proof.
  cbv zeta. unfold nearest. set (f := Qfloor q). destruct (Qle_bool (1#2) (q - inject_Z f)) eqn:A.
  - apply Qle_bool_iff in A. destruct (Qle_bool (q - inject_Z f) (1#2)) eqn:B; [|right; auto]. apply Qle_bool_iff in B. destruct (Z.even f); auto.
  - left. split; [auto|]. destruct (Qlt_le_dec (q - inject_Z f) (1#2)) as [L|L]; [apply Qlt_le_weak; auto|]. apply Qle_bool_iff in L. congruence.
Qed.
Lemma nearest_err q : inject_Z (nearest q) - (1#2) <= q /\ q <= inject_Z (nearest q) + (1#2).
Proof.
  pose proof (Qfloor_le q) as A. pose proof (floor_lt q) as B. destruct (nearest_cases q) as [[-> C]|[-> C]]; [lra|].
  rewrite inject_Z_plus. change (inject_Z 1) with 1. lra.
Qed.
Lemma nearest_unique q m : inject_Z m - (1#2) < q -> q < inject_Z m + (1#2) -> nearest q = m.
Proof.
  intros A B. destruct (nearest_err q) as [C D].
  assert (X : inject_Z (nearest q) < inject_Z (m + 1)) by (rewrite inject_Z_plus; change (inject_Z 1) with 1; lra).
  assert (Y : inject_Z m < inject_Z (nearest q + 1)) by (rewrite inject_Z_plus; change (inject_Z 1) with 1; lra).
  apply inj_lt in X, Y. lia.
Qed.
Lemma nearest_nonneg q : 0 <= q -> (0 <= nearest q)%Z.
Proof.
  intro H. destruct (nearest_err q) as [C D]. assert (X : inject_Z (-1) < inject_Z (nearest q)) by (change (inject_Z (-1)) with (-1#1); lra). apply inj_lt in X. lia.
Qed.
(** ** the leading bit *)
Lemma lead_between v : 0 < v -> pow2 (lead v) <= v /\ v < pow2 (lead v + 1).
Proof.
  intro H. destruct v as [n d]. unfold lead. cbn [Qnum Qden]. set (k := (Z.log2 n - Z.log2 (Z.pos d))%Z).
  assert (N : (0 < n)%Z) by (unfold Qlt in H; cbn in H; lia).
  pose proof (Z.log2_spec n N) as [N1 N2]. pose proof (Z.log2_spec (Z.pos d) ltac:(lia)) as [D1 D2]. pose proof (Z.log2_nonneg n). pose proof (Z.log2_nonneg (Z.pos d)).
  set (ln := Z.log2 n) in *. set (ld := Z.log2 (Z.pos d)) in *.
  assert (V : (n # d) * inject_Z (Z.pos d) == inject_Z n) by (unfold Qeq; cbn; lia).
  apply inj_le in N1. apply inj_le in D1. apply inj_lt in N2. apply inj_lt in D2.
  rewrite <- pow2_Z in N1, D1, N2, D2 by lia.
  pose proof (pow2_pos ld) as PL. assert (K : pow2 ln == pow2 k * pow2 ld) by (rewrite <- pow2_add; replace (k + ld)%Z with ln by (unfold k; lia); reflexivity).
  rewrite <- Z.add_1_r, pow2_S in N2, D2. rewrite K in N1, N2. pose proof (pow2_pos k) as PK. set (v := n # d) in *. set (D := inject_Z (Z.pos d)) in *. clearbody v D.
  assert (V0 : 0 < v) by auto.
  assert (U : v < 2 * pow2 k). { rewrite <- V in N2. apply Qnot_le_lt. intro C. assert (2 * pow2 k * pow2 ld <= v * D) by nra. lra. }
  assert (L : pow2 k < 2 * v). { rewrite <- V in N1. apply Qnot_le_lt. intro C. assert (2 * (v * D) < pow2 k * (2 * pow2 ld)) by nra. lra. }
  destruct (Qle_bool (pow2 k) v) eqn:E.
  - apply Qle_bool_iff in E. split; [auto|]. rewrite pow2_S. auto.
  - split; [pose proof (pow2_pred k); lra|]. replace (k - 1 + 1)%Z with k by lia. apply Qnot_le_lt. intro C. apply Qle_bool_iff in C. congruence.
Qed.
Lemma lead_unique v k : pow2 k <= v -> v < pow2 (k + 1) -> lead v = k.
Proof.
  intros A B. pose proof (pow2_pos k). destruct (lead_between v ltac:(lra)) as [C D].
  assert (X : pow2 k < pow2 (lead v + 1)) by lra. assert (Y : pow2 (lead v) < pow2 (k + 1)) by lra. apply pow2_lt_inv in X, Y. lia.
Qed.
(** ** rounding *)
Lemma div_mul a b : ~ b == 0 -> (a / b) * b == a. Proof. intro H. field. auto. Qed.
Lemma round_err P emin sgn v : 0 < v -> exists e, expo (round P emin sgn v) = e /\ neg (round P emin sgn v) = sgn /\ e = Z.max emin (lead v - (P - 1)) /\
  v - pow2 (e - 1) <= mag (round P emin sgn v) /\ mag (round P emin sgn v) <= v + pow2 (e - 1).
Proof.
  intro H. unfold round. destruct (Qle_bool v 0) eqn:Z0; [apply Qle_bool_iff in Z0; lra|]. cbn [expo neg]. set (e := Z.max emin (lead v - (P - 1))). exists e. split; [auto|]. split; [auto|]. split; [auto|].
  unfold mag. cbn [mant expo]. destruct (nearest_err (v / pow2 e)) as [A B]. pose proof (pow2_pos e). assert (NZ : ~ pow2 e == 0) by lra. pose proof (div_mul v (pow2 e) NZ) as E. pose proof (pow2_pred e) as PP.
  set (N := inject_Z (nearest (v / pow2 e))) in *. set (t := v / pow2 e) in *. clearbody N t. split.
  - assert ((t - (1#2)) * pow2 e <= N * pow2 e) by nra. lra.
  - assert (N * pow2 e <= (t + (1#2)) * pow2 e) by nra. lra.
Qed.
(** a number near enough to v is what v is rounded to *)
Lemma round_near P emin sgn m e v : (2 <= P)%Z -> (2 ^ (P - 1) <= m < 2 ^ P)%Z -> (emin < e)%Z ->
  4 * (v - inject_Z m * pow2 e) < pow2 e -> 4 * (inject_Z m * pow2 e - v) < pow2 e ->
  mag (round P emin sgn v) == inject_Z m * pow2 e /\ neg (round P emin sgn v) = sgn.
Proof.
  intros HP [M1 M2] E A B. pose proof (pow2_pos e) as PE. apply inj_le in M1. assert (M2' : inject_Z m <= inject_Z (2 ^ P - 1)) by (apply (proj1 (inj_le m (2 ^ P - 1))); lia). unfold Z.sub in M2'. rewrite inject_Z_plus in M2'. change (inject_Z (- (1))) with (-1#1) in M2'.
  rewrite <- pow2_Z in M1, M2' by lia. assert (P1 : 1 <= pow2 (P - 1)) by (change 1 with (pow2 0) at 1; apply pow2_le; lia).
  assert (PP : pow2 (P - 1 + e) == pow2 (P - 1) * pow2 e) by apply pow2_add.
  pose proof (pow2_pred P) as PQ. set (M := inject_Z m) in *.
  assert (V0 : 0 < v) by nra.
  assert (R : round P emin sgn v = mk_f sgn (nearest (v / pow2 (Z.max emin (lead v - (P - 1))))) (Z.max emin (lead v - (P - 1)))).
  { unfold round. destruct (Qle_bool v 0) eqn:Z0; [apply Qle_bool_iff in Z0; lra|auto]. }
  rewrite R. split; [|reflexivity]. unfold mag. cbn [mant expo]. clear R.
  destruct (Qlt_le_dec v (pow2 (P - 1 + e))) as [L|L].
  - (* below the binade: m = 2^(P-1) *)
    assert (EM : m = (2 ^ (P - 1))%Z).
    { assert (X : inject_Z m < inject_Z (2 ^ (P - 1) + 1)). { rewrite inject_Z_plus, <- pow2_Z by lia. change (inject_Z 1) with 1. rewrite PP in L. fold M. apply Qnot_le_lt. intro C. nra. }
      apply inj_lt in X. assert (Y : (2 ^ (P - 1) <= m)%Z) by (apply (proj2 (inj_le _ _)); rewrite <- pow2_Z by lia; exact M1). lia. }
    assert (EM' : M == pow2 (P - 1)) by (unfold M; rewrite EM, pow2_Z by lia; reflexivity).
    assert (LD : lead v = (P - 2 + e)%Z).
    { apply lead_unique.
      - replace (P - 2 + e)%Z with (P - 1 + (e - 1))%Z by lia. rewrite pow2_add. pose proof (pow2_pred e). pose proof (pow2_pos (e - 1)). nra.
      - replace (P - 2 + e + 1)%Z with (P - 1 + e)%Z by lia. auto. }
    rewrite LD. replace (Z.max emin (P - 2 + e - (P - 1))) with (e - 1)%Z by lia. pose proof (pow2_pred e) as Q1. pose proof (pow2_pos (e - 1)) as Q2.
    assert (NZ : ~ pow2 (e - 1) == 0) by lra. pose proof (div_mul v _ NZ) as DV. set (t := v / pow2 (e - 1)) in *.
    assert (N : nearest t = (2 * m)%Z).
    { apply nearest_unique; rewrite inject_Z_mult; fold M; change (inject_Z 2) with 2; apply Qnot_le_lt; intro C; clearbody t; nra. }
    rewrite N, inject_Z_mult. fold M. change (inject_Z 2) with 2. nra.
  - assert (LD : lead v = (P - 1 + e)%Z).
    { apply lead_unique; [auto|]. replace (P - 1 + e + 1)%Z with (P + e)%Z by lia. rewrite pow2_add. nra. }
    rewrite LD. replace (Z.max emin (P - 1 + e - (P - 1))) with e by lia.
    assert (NZ : ~ pow2 e == 0) by lra. pose proof (div_mul v _ NZ) as DV. set (t := v / pow2 e) in *.
    assert (N : nearest t = m). { apply nearest_unique; fold M; apply Qnot_le_lt; intro C; clearbody t; nra. }
    rewrite N. reflexivity.
Qed.
(** a normal representation *)
Lemma normal_rep P x : (2 <= P)%Z -> (0 < mant x < 2 ^ P)%Z -> exists m e, (2 ^ (P - 1) <= m < 2 ^ P)%Z /\ (e <= expo x)%Z /\ mag x == inject_Z m * pow2 e.
Proof.
  intros HP [A B]. set (k := (P - 1 - Z.log2 (mant x))%Z). pose proof (Z.log2_spec (mant x) A) as [L1 L2]. pose proof (Z.log2_nonneg (mant x)) as L0.
  assert (K : (0 <= k)%Z) by (assert (Z.log2 (mant x) < P)%Z by (apply Z.log2_lt_pow2; lia); unfold k; lia).
  exists (mant x * 2 ^ k)%Z, (expo x - k)%Z. split; [|split].
  - replace (P - 1)%Z with (Z.log2 (mant x) + k)%Z by (unfold k; lia). assert (EP : (2 ^ P = 2 ^ (Z.succ (Z.log2 (mant x))) * 2 ^ k)%Z) by (rewrite <- Z.pow_add_r by lia; f_equal; unfold k; lia). rewrite EP.
    rewrite Z.pow_add_r by lia. assert (0 < 2 ^ k)%Z by (apply Z.pow_pos_nonneg; lia). nia.
  - lia.
  - unfold mag. rewrite inject_Z_mult, <- pow2_Z by lia. rewrite <- Qmult_assoc, <- pow2_add. replace (k + (expo x - k))%Z with (expo x) by lia. reflexivity.
Qed.
