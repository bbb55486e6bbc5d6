(** Proofs for C76 *)
From Coq Require Import QArith Qround Qpower Qabs Lqa.
From Verif Require Import CBase FloatModel FloatSpec FloatProof FloatProof4 IniFloatSpec.
Open Scope Q_scope.
Lemma nearest_best q k : Qabs (inject_Z (nearest q) - q) <= Qabs (inject_Z k - q).
Proof.
  destruct (nearest_err q) as [A B]. destruct (Z.eq_dec k (nearest q)) as [->|N]; [apply Qle_refl|].
  assert (X : inject_Z k <= inject_Z (nearest q) - 1 \/ inject_Z (nearest q) + 1 <= inject_Z k).
  { destruct (Z_lt_le_dec k (nearest q)) as [L|L]; [left|right].
    - assert (H : (k + 1 <= nearest q)%Z) by lia. apply inj_le in H. rewrite inject_Z_plus in H. change (inject_Z 1) with 1 in H. set (x := inject_Z k) in *. set (y := inject_Z (nearest q)) in *. clearbody x y. lra.
    - assert (H : (nearest q + 1 <= k)%Z) by lia. apply inj_le in H. rewrite inject_Z_plus in H. change (inject_Z 1) with 1 in H. set (x := inject_Z k) in *. set (y := inject_Z (nearest q)) in *. clearbody x y. lra. }
  set (r := inject_Z (nearest q)) in *. clearbody r. set (y := inject_Z k) in *. clearbody y.
  apply Qabs_case; apply Qabs_case; intros; destruct X; lra.
Qed.
Lemma abs_scale a b u : 0 < u -> Qabs (a * u - b * u) == Qabs (a - b) * u.
Proof. intro H. setoid_replace (a * u - b * u) with ((a - b) * u) by ring. rewrite Qabs_Qmult. rewrite (Qabs_pos u) by lra. reflexivity. Qed.
Lemma round_best P emin sgn v m e' : (2 <= P)%Z -> 0 <= v -> (0 <= m < 2 ^ P)%Z -> (emin <= e')%Z -> Qabs (mag (round P emin sgn v) - v) <= Qabs (inject_Z m * pow2 e' - v).
Proof.
  intros HP V M E'.
  assert (MN : 0 <= inject_Z m * pow2 e').
  { apply Qmult_le_0_compat; [|pose proof (pow2_pos e'); lra]. assert (X : (0 <= m)%Z) by lia. apply inj_le in X. exact X. }
  unfold round. destruct (Qle_bool v 0) eqn:Z0.
  - apply Qle_bool_iff in Z0. unfold mag. cbn [mant expo]. change (inject_Z 0) with (0 # 1). assert (Q0 : v == 0) by lra. rewrite Q0. setoid_replace (0 * pow2 emin - 0) with 0 by ring. change (Qabs 0) with 0. apply Qabs_nonneg.
  - assert (VP : 0 < v) by (destruct (Qlt_le_dec 0 v) as [X|X]; [exact X|]; apply Qle_bool_iff in X; congruence).
    set (e := Z.max emin (lead v - (P - 1))). unfold mag. cbn [mant expo]. pose proof (pow2_pos e) as UP. assert (NZ : ~ pow2 e == 0) by lra. pose proof (div_mul v (pow2 e) NZ) as DM. set (w := v / pow2 e) in *.
    assert (BEST : forall k, Qabs (inject_Z (nearest w) * pow2 e - v) <= Qabs (inject_Z k * pow2 e - v)).
    { intro k. rewrite <- DM. rewrite !abs_scale by exact UP. pose proof (nearest_best w k). nra. }
    destruct (Z_lt_le_dec e' e) as [L|L].
    + assert (EE : e = (lead v - (P - 1))%Z) by lia. destruct (lead_between v VP) as [LB _].
      assert (TOP : inject_Z (2 ^ (P - 1)) * pow2 e == pow2 (lead v)). { rewrite <- pow2_Z by lia. rewrite <- pow2_add. replace (P - 1 + e)%Z with (lead v) by lia. reflexivity. }
      assert (YL : inject_Z m * pow2 e' <= pow2 (lead v)).
      { assert (A : inject_Z m <= pow2 P) by (rewrite pow2_Z by lia; rewrite <- Zle_Qle; lia). assert (B : pow2 e' <= pow2 (e - 1)) by (apply pow2_le; lia). pose proof (pow2_pos e'). pose proof (pow2_pos P). pose proof (pow2_pos (e - 1)).
        assert (C : pow2 P * pow2 (e - 1) == pow2 (lead v)) by (rewrite <- pow2_add; replace (P + (e - 1))%Z with (lead v) by lia; reflexivity). rewrite <- C.
        assert (X0 : (0 <= m)%Z) by lia. apply inj_le in X0. change (inject_Z 0) with 0 in X0. set (x := inject_Z m) in *. set (y := pow2 e') in *. set (z := pow2 P) in *. set (t := pow2 (e - 1)) in *. clearbody x y z t. nra. }
      eapply Qle_trans; [apply (BEST (2 ^ (P - 1))%Z)|]. rewrite TOP. set (y := inject_Z m * pow2 e') in *. set (z := pow2 (lead v)) in *. clearbody y z. apply Qabs_case; apply Qabs_case; intros; lra.
    + assert (K : inject_Z m * pow2 e' == inject_Z (m * 2 ^ (e' - e)) * pow2 e). { rewrite inject_Z_mult, <- pow2_Z by lia. rewrite <- Qmult_assoc, <- pow2_add. replace (e' - e + e)%Z with e' by lia. reflexivity. }
      rewrite K. apply BEST.
Qed.
(** the result has a representation in the format *)
Lemma round_format P emin emax sgn v : (2 <= P)%Z -> 0 <= v -> v <= pow2 (emax + P - 1) -> (emin < emax)%Z ->
  exists m e, (0 <= m < 2 ^ P)%Z /\ (emin <= e <= emax)%Z /\ inject_Z m * pow2 e == mag (round P emin sgn v) /\ neg (round P emin sgn v) = sgn.
Proof.
  intros HP V VB EM. unfold round. destruct (Qle_bool v 0) eqn:Z0.
  - exists 0%Z, emin. unfold mag. cbn [mant expo neg]. split; [split; [lia|apply Z.pow_pos_nonneg; lia]|]. split; [lia|]. split; reflexivity.
  - assert (VP : 0 < v) by (destruct (Qlt_le_dec 0 v) as [X|X]; [exact X|]; apply Qle_bool_iff in X; congruence).
    set (e := Z.max emin (lead v - (P - 1))). unfold mag. cbn [mant expo neg]. pose proof (pow2_pos e) as UP. assert (NZ : ~ pow2 e == 0) by lra. pose proof (div_mul v (pow2 e) NZ) as DM. set (w := v / pow2 e) in *.
    destruct (lead_between v VP) as [LB LU].
    assert (LE : (lead v <= emax + P - 1)%Z). { assert (X : pow2 (lead v) < pow2 (emax + P - 1 + 1)). { eapply Qle_lt_trans; [exact LB|]. eapply Qle_lt_trans; [exact VB|]. rewrite pow2_S. pose proof (pow2_pos (emax + P - 1)). lra. } apply pow2_lt_inv in X. lia. }
    assert (EU : (emin <= e <= emax)%Z) by (unfold e; lia).
    assert (W0 : 0 <= w). { destruct (Qlt_le_dec w 0) as [X|X]; [|exact X]. assert (w * pow2 e < 0) by nra. lra. }
    assert (WU : w < inject_Z (2 ^ P)).
    { rewrite <- pow2_Z by lia. assert (X : v < pow2 P * pow2 e). { rewrite <- pow2_add. eapply Qlt_le_trans; [exact LU|]. apply pow2_le. unfold e. lia. } destruct (Qlt_le_dec w (pow2 P)) as [Y|Y]; [exact Y|]. assert (pow2 P * pow2 e <= w * pow2 e) by (apply Qmult_le_compat_r; [exact Y|lra]). lra. }
    assert (N0 : (0 <= nearest w)%Z) by (apply nearest_nonneg; exact W0).
    assert (NU : (nearest w <= 2 ^ P)%Z). { destruct (nearest_err w) as [A _]. assert (X : inject_Z (nearest w) < inject_Z (2 ^ P + 1)) by (rewrite inject_Z_plus; change (inject_Z 1) with (1 # 1); lra). apply inj_lt in X. lia. }
    destruct (Z.eq_dec (nearest w) (2 ^ P)) as [Q|Q].
    + (* carried over: v is at least the last number below 2^P units; only possible below the greatest exponent *)
      destruct (Z.eq_dec e emax) as [EQ|NE].
      * exfalso. assert (X : v <= pow2 (P - 1) * pow2 e) by (rewrite <- pow2_add, EQ; replace (P - 1 + emax)%Z with (emax + P - 1)%Z by lia; exact VB).
        assert (Y : w <= pow2 (P - 1)). { destruct (Qlt_le_dec (pow2 (P - 1)) w) as [Y|Y]; [|exact Y]. assert (pow2 (P - 1) * pow2 e < w * pow2 e) by (apply Qmult_lt_compat_r; assumption). lra. }
        destruct (nearest_err w) as [A _]. rewrite Q in A. rewrite <- pow2_Z in A by lia. pose proof (pow2_pred P) as PP. assert (pow2 1 <= pow2 (P - 1)) by (apply pow2_le; lia). change (pow2 1) with (2 # 1) in H. lra.
      * exists (2 ^ (P - 1))%Z, (e + 1)%Z. split; [split; [apply Z.pow_nonneg; lia|apply Z.pow_lt_mono_r; lia]|]. split; [lia|]. split; [|reflexivity]. rewrite Q, <- !pow2_Z by lia. rewrite <- !pow2_add. replace (P - 1 + (e + 1))%Z with (P + e)%Z by lia. reflexivity.
    + exists (nearest w), e. split; [lia|]. split; [exact EU|]. split; reflexivity.
Qed.
Lemma double_nearest sgn v : 0 <= v -> v <= pow2 1023 -> nearest_of is_double v (round_double sgn v) /\ neg (round_double sgn v) = sgn.
Proof.
  intros V B. destruct (round_format 53 (-1074) 971 sgn v) as (m & e & M & E & Q & N); [lia|exact V|exact B|lia|]. split; [|exact N]. split.
  - exists (mk_f sgn m e). split; [split; assumption|]. split; [symmetry; exact N|exact Q].
  - intros y (Y1 & Y2). apply (round_best 53 (-1074) sgn v (mant y) (expo y)); [lia|exact V|exact Y1|lia].
Qed.
Lemma float_nearest sgn v : 0 <= v -> v <= pow2 127 -> nearest_of is_float v (round_float sgn v) /\ neg (round_float sgn v) = sgn.
Proof.
  intros V B. destruct (round_format 24 (-149) 104 sgn v) as (m & e & M & E & Q & N); [lia|exact V|exact B|lia|]. split; [|exact N]. split.
  - exists (mk_f sgn m e). split; [split; assumption|]. split; [symmetry; exact N|exact Q].
  - intros y (Y1 & Y2). apply (round_best 24 (-149) sgn v (mant y) (expo y)); [lia|exact V|exact Y1|lia].
Qed.
